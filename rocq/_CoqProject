-Q theories Verif
theories/Base.v
theories/BaseProofs.v
theories/FlatSpec.v
theories/FlatModel.v
theories/FlatProofs.v
theories/FlatTheorems.v
theories/AssocSpec.v
theories/AssocModel.v
theories/AssocProofs.v
theories/AssocTheorems.v
theories/GridSpec.v
theories/GridModel.v
theories/GridProofs.v
theories/GridTheorems.v
theories/RingSpec.v
theories/RingModel.v
theories/RingProofs.v
theories/RingTheorems.v
theories/FlagSpec.v
theories/FlagModel.v
theories/FlagProofs.v
theories/FlagTheorems.v
theories/Str.v
theories/StrSpec.v
theories/StrModel.v
theories/StrBase.v
theories/StrProofs.v
theories/StrTheorems.v
theories/CastSpec.v
theories/CastModel.v
theories/CastProofs.v
theories/CastTheorems.v
theories/PnSpec.v
theories/PnModel.v
theories/PnProofs.v
theories/PnProofs2.v
theories/PnTheorems.v
theories/TokSpec.v
theories/TokModel.v
theories/TokProofs.v
theories/TokTheorems.v
theories/ZmlSpec.v
theories/ZmlModel.v
theories/ZmlReader.v
theories/ZmlLex.v
theories/ZmlRound.v
theories/ZmlWrite.v
theories/ZmlProofs.v
theories/ZmlSafe.v
theories/ZmlTheorems.v
theories/PathSpec.v
theories/PathModel.v
theories/PathProofs.v
theories/PathTheorems.v
theories/FsSpec.v
theories/FsModel.v
theories/FsProofs.v
theories/FsTheorems.v
theories/IniSpec.v
theories/IniModel.v
theories/IniProofs.v
theories/IniTheorems.v
theories/IncSpec.v
theories/IncModel.v
theories/IncProofs.v
theories/IncTheorems.v
theories/Conc.v
theories/MemoSpec.v
theories/MemoModel.v
theories/MemoProofs.v
theories/MemoTheorems.v
theories/CacheSpec.v
theories/CacheModel.v
theories/CacheProofs.v
theories/CacheTheorems.v
theories/LogSpec.v
theories/LogModel.v
theories/LogProofs.v
theories/LogConc.v
theories/LogConcProofs.v
theories/LogTheorems.v
theories/TimeSpec.v
theories/TimeModel.v
theories/TimeProofs.v
theories/TimeTheorems.v
theories/ProfSpec.v
theories/ProfModel.v
theories/ProfProofs.v
theories/ProfTheorems.v
theories/SetSpec.v
theories/SetModel.v
theories/SetProofs.v
theories/SetTheorems.v
theories/UtilSpec.v
theories/UtilModel.v
theories/UtilProofs.v
theories/UtilTheorems.v
theories/NumSpec.v
theories/NumModel.v
theories/NumProofs.v
theories/NumTheorems.v
theories/IplSpec.v
theories/IplModel.v
theories/IplProofs.v
theories/IplTheorems.v
theories/SigSpec.v
theories/SigModel.v
theories/SigProofs.v
theories/SigTheorems.v
theories/StatSpec.v
theories/StatModel.v
theories/StatProofs.v
theories/StatTheorems.v
theories/GeoSpec.v
theories/GeoModel.v
theories/GeoProofs.v
theories/GeoProofs2.v
theories/GeoTheorems.v
theories/EulSpec.v
theories/EulModel.v
theories/EulProofs.v
theories/EulProofs2.v
theories/EulTheorems.v
theories/ShpSpec.v
theories/ShpModel.v
theories/ShpProofs.v
theories/ShpTheorems.v
theories/VolSpec.v
theories/VolModel.v
theories/VolProofs.v
theories/VolTheorems.v
theories/SplSpec.v
theories/SplModel.v
theories/SplProofs.v
theories/SplTheorems.v
theories/CtSpec.v
theories/CtModel.v
theories/CtProofs.v
theories/CtTheorems.v
theories/ArrSpec.v
theories/ArrModel.v
theories/ArrProofs.v
theories/ArrTheorems.v
theories/DynSpec.v
theories/DynModel.v
theories/DynProofs.v
theories/DynTheorems.v
theories/GpnSpec.v
theories/GpnModel.v
theories/GpnProofs.v
theories/GpnTheorems.v
theories/ColSpec.v
theories/ColModel.v
theories/ColProofs.v
theories/ColTheorems.v
theories/RngSpec.v
theories/RngModel.v
theories/RngProofs.v
theories/RngTheorems.v
theories/IdxSpec.v
theories/IdxModel.v
theories/IdxProofs.v
theories/IdxTheorems.v
theories/TstSpec.v
theories/TstModel.v
theories/TstProofs.v
theories/TstTheorems.v
theories/DicSpec.v
theories/DicModel.v
theories/DicProofs.v
theories/DicTheorems.v
theories/IoSpec.v
theories/IoModel.v
theories/IoProofs.v
theories/IoTheorems.v
theories/XmlSpec.v
theories/XmlModel.v
theories/XmlProofs.v
theories/XmlTheorems.v
theories/FltSpec.v
theories/FltModel.v
theories/FltNum.v
theories/FltText.v
theories/FltProofs.v
theories/FltRead.v
theories/FltTheorems.v
theories/TblSpec.v
theories/TblModel.v
theories/TblNum.v
theories/TblProofs.v
theories/TblTab.v
theories/TblFrame.v
theories/TblTheorems.v
theories/BoxTheorems.v
theories/SerModel.v
theories/SerProofs.v
theories/SerProofs2.v
theories/SerProofs3.v
theories/SerTheorems.v
theories/ZmlDocSpec.v
theories/ZmlDocProofs.v
theories/ZmlDocTheorems.v
theories/SnkSpec.v
theories/SnkModel.v
theories/SnkProofs.v
theories/SnkTheorems.v
theories/FilSpec.v
theories/FilModel.v
theories/FilProofs.v
theories/FilTheorems.v
theories/DurSpec.v
theories/DurModel.v
theories/DurProofs.v
theories/DurTheorems.v
theories/DblSpec.v
theories/DblModel.v
theories/DblProofs.v
theories/DblTheorems.v
theories/TxtSpec.v
theories/TxtModel.v
theories/TxtProofs.v
theories/TxtRead.v
theories/TxtTheorems.v
theories/RepSpec.v
theories/RepModel.v
theories/RepProofs.v
theories/RepNum.v
theories/RepTheorems.v
theories/VecSpec.v
theories/VecModel.v
theories/VecProofs.v
theories/VecRot.v
theories/VecTheorems.v
theories/FrmSpec.v
theories/FrmModel.v
theories/FrmProofs.v
theories/FrmWave.v
theories/FrmTheorems.v
theories/GftSpec.v
theories/GftModel.v
theories/GftNum.v
theories/GftProofs.v
theories/GftFile.v
theories/GftTheorems.v
theories/MomSpec.v
theories/MomModel.v
theories/MomProofs.v
theories/MomMean.v
theories/MomPoly.v
theories/MomMed.v
theories/MomTheorems.v
theories/HstSpec.v
theories/HstModel.v
theories/HstProofs.v
theories/HstTheorems.v
theories/SdbSpec.v
theories/SdbModel.v
theories/SdbProofs.v
theories/SdbTheorems.v
theories/HsvSpec.v
theories/HsvModel.v
theories/HsvProofs.v
theories/HsvTheorems.v
theories/UnqSpec.v
theories/UnqModel.v
theories/UnqProofs.v
theories/UnqTheorems.v
theories/CfbSpec.v
theories/CfbModel.v
theories/CfbProofs.v
theories/CfbTheorems.v
theories/RplSpec.v
theories/RplModel.v
theories/RplProofs.v
theories/RplTheorems.v
theories/SpaProofs.v
theories/SpaTheorems.v
theories/WavSpec.v
theories/WavModel.v
theories/WavProofs.v
theories/WavTheorems.v
theories/IifSpec.v
theories/IifModel.v
theories/IifProofs.v
theories/IifTheorems.v
