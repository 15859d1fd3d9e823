(** Model of reading and writing property trees as files, with and without an error code:
    /repo/xo/serialization/serialize.cpp, prop_node_serializer.cpp, prop_node_serializer_zml.cpp and _ini.cpp with
    ec != nullptr, and /repo/xo/system/error_code.h and .cpp.  What is logged (error_code.cpp 8, 16) is not modelled. *)
From Coq Require Import Ascii String List Arith Bool ZArith.
From Verif Require Import Base Str StrModel PnSpec PnModel TokSpec TokModel ZmlModel IniModel XmlSpec XmlModel PathModel CastModel.
Import ListNotations.

(** * error codes *)
(** error_code.h 8-20: number and message *)
Record error := Err { err_code : Z; err_message : str }.
(** error_code.h 10, 13 *)
Definition no_error : error := Err 0 [].
Definition err_good (e : error) : bool := (err_code e =? 0)%Z.
(** an error_code*: None is nullptr *)
Definition ecptr := option error.
(** error_code.cpp 6-12: the pointer and the result *)
Definition try_set_error (ec : ecptr) (msg : str) : ecptr * bool :=
  match ec with Some _ => (Some (Err (-1) msg), true) | None => (None, false) end.
(** error_code.cpp 14-21 *)
Definition set_error_or_throw (ec : ecptr) (msg : str) : outcome ecptr :=
  match ec with Some _ => Ok (Some (Err (-1) msg)) | None => Throw end.

(** * the ZML reader with ec != nullptr *)
Section Ec.
  (** the whole text, for line numbers; the folder of the document; 281-286 load_zml( filename, ec ) *)
  Context (buffer : str) (folder : str) (load : str -> outcome (pn * option str)).

  (** prop_node_serializer_zml.cpp 23-26: the message *)
  Definition zml_message (s : cs) (m : str) : str :=
    lit "Error parsing line " ++ to_string (Z.of_nat (line_number buffer s)) ++ lit ": " ++ m.

  (** 28-44: token, stream, and the message if an error was set.  Out of fuel is UB. *)
  Fixpoint token_loop_ec (fuel : nat) (s : cs) : outcome (str * cs * option str) :=
    match fuel with
    | O => UB
    | S f =>
      do r <- get_token zml_cfg s;
      let (t, s) := r in
      if str_eqb t (lit "#") || str_eqb t (lit "//") then token_loop_ec f (snd (get_line s))
      else if str_eqb t (lit "/*") then
        do r <- seek_past (lit "*/") s;
        if fst r then token_loop_ec f (snd r)
        else Ok ([], snd r, Some (zml_message (snd r) (lit "Multiline comment '/*' has no matching '*/'")))
      else Ok (t, s, None)
    end.
  Definition get_zml_token_ec (s : cs) : outcome (str * cs * option str) := token_loop_ec (S (length (cs_rest s))) s.

  (** reader, message in *ec if it was set since the start, included_files *)
  Record est := EST { e_z : zst cs; e_msg : option str; e_files : list str }.
  Definition with_z (z : zst cs) (s : est) : est := EST z (e_msg s) (e_files s).
  (** ec->set *)
  Definition note (m : option str) (s : est) : est :=
    match m with Some _ => EST (e_z s) m (e_files s) | None => s end.
  Definition fail (m : str) (s : est) : est := note (Some (zml_message (z_src (e_z s)) m)) s.

  Definition tok_ec (s : est) : outcome (str * est) :=
    do r <- get_zml_token_ec (z_src (e_z s));
    let '(t, c, m) := r in Ok (t, note m (with_z (ZSt c (z_root (e_z s)) (z_macros (e_z s))) s)).

  (** 89-94 *)
  Definition item_value_ec (np : loc) (s : est) : outcome (option (loc * str) * est) :=
    do r <- tok_ec s;
    let (t, s) := r in
    if str_eqb t (lit "=") || str_eqb t (lit ": ") then
      do r <- tok_ec s; let (t, s) := r in Ok (Some (np, t), s)
    else if str_eqb t (lit "{") || str_eqb t (lit "[") then Ok (Some (np, t), s)
    else Ok (None, fail (lit "Expected '=', ':', '{' or '['") s).
  (** 70-104; None: the layer returns *)
  Definition item_head_ec (close : str) (parent : loc) (t : str) (s : est) : outcome (option (loc * str) * est) :=
    if str_eqb close (lit "]") then let (np, z) := new_child parent [] (e_z s) in Ok (Some (np, t), with_z z s)
    else if str_eqb t (lit "{") || str_eqb t (lit "[") then
      match length (children_at parent (e_z s)) with
      | O => Ok (None, fail (lit "'{' or '[' has no matching '}' or ']'") s)
      | S n => Ok (Some (Loc (in_macros parent) (loc_path parent ++ [n]), t), s)
      end
    else
      match t with
      | [] => UB
      | x :: _ =>
        if Ascii.eqb x "$"%char then
          if in_macros parent then UB else let (np, z) := new_child (Loc true []) t (e_z s) in item_value_ec np (with_z z s)
        else if negb (isgraph x) then Ok (None, fail (lit "Invalid label " ++ t) s)
        else let (np, z) := new_child parent t (e_z s) in item_value_ec np (with_z z s)
      end.

  (** 107-143: whether the layer continues.  On an error the node keeps its contents.  The message of the
      model is not that of the code, which is one of three texts followed by the token or a part of it. *)
  Definition assign_value_ec (np : loc) (t : str) (s : est) : outcome (bool * est) :=
    match assign_value np t (e_z s) with
    | Ok z => Ok (true, with_z z s)
    | Throw => Ok (false, fail (lit "Could not use " ++ t) s)
    | UB => UB
    end.

  (** 62-63 *)
  Definition include_path (name : str) : outcome str := if is_absolute name then Ok name else join_path folder name.

  (** 46-150 *)
  Fixpoint read_ec (fuel : nat) (close : str) (parent : loc) (mc : nat) (s : est) : zres est :=
    match fuel with
    | O => None
    | S f =>
      zbind (tok_ec s) (fun r => let (t, s) := r in
      if str_eqb t close then Some (Ok (with_z (pop_macros mc (e_z s)) s))
      else match t with
      | [] => Some (Ok (fail (lit "Unexpected end of stream") s))
      | _ =>
        if str_eqb t (lit "<<") then
          zbind (tok_ec s) (fun r => let (name, s) := r in
          zbind (tok_ec s) (fun r => let (e, s) := r in
          let s := if str_eqb e (lit ">>") then s else fail (lit "'<<' has no find matching '>>'") s in
          zbind (include_path name) (fun p =>
          zbind (load p) (fun inc =>
          let s := with_z (modify parent (fun n => append n (fst inc)) (e_z s)) (note (snd inc) s) in
          read_ec f close parent mc (EST (e_z s) (e_msg s) (e_files s ++ [p]))))))
        else
          zbind (item_head_ec close parent t s) (fun r => let (o, s) := r in
          match o with
          | None => Some (Ok s)
          | Some (np, t) =>
            if str_eqb t (lit "{") then
              zbind' (read_ec f (lit "}") np (pn_size (z_macros (e_z s))) s) (read_ec f close parent mc)
            else if str_eqb t (lit "[") then
              zbind' (read_ec f (lit "]") np (pn_size (z_macros (e_z s))) s) (read_ec f close parent mc)
            else zbind (assign_value_ec np t s) (fun r => if fst r then read_ec f close parent mc (snd r) else Some (Ok (snd r)))
          end)
      end)
    end.
End Ec.

(** 152-161: tree, message and included files; the fuel suffices (proved) *)
Definition parse_zml_ec (folder : str) (load : str -> outcome (pn * option str)) (text : str) : outcome (pn * option str * list str) :=
  match read_ec text folder load (S (length text)) [] (Loc false []) 0 (EST (ZSt (cs_of_string text) pn_empty pn_empty) None []) with
  | Some r => omap (fun s => (z_root (e_z s), e_msg s, e_files s)) r
  | None => UB
  end.

(** * files *)
(** contents by name; which names can be written.  A directory, which ifstream opens and cannot read, is not modelled. *)
Record disk := Disk { contents : str -> option str; can_write : str -> bool }.

Section Files.
  Context (d : disk).

  (** filesystem.cpp 291-301 *)
  Definition load_string (name : str) (ec : ecptr) : outcome (str * ecptr) :=
    match contents d name with
    | Some text => Ok (text, ec)
    | None => do ec <- set_error_or_throw ec (lit "Could not open " ++ name); Ok ([], ec)
    end.

  (** prop_node_serializer_zml.cpp 281-286 with ec == nullptr; documents that include each other deeper than the
      stack allows, [depth], are undefined behaviour *)
  Fixpoint load_zml (depth : nat) (name : str) : outcome pn :=
    match depth with
    | O => UB
    | S k =>
      do text <- load_string name None;
      do folder <- parent_path name;
      parse_zml (fun n => do p <- include_path folder n; load_zml k p) (fst text)
    end.
  (** the same with ec != nullptr: load_string is called without ec; 64 passes on no included_files *)
  Fixpoint load_zml_ec (depth : nat) (name : str) : outcome (pn * option str * list str) :=
    match depth with
    | O => UB
    | S k =>
      do text <- load_string name None;
      do folder <- parent_path name;
      parse_zml_ec folder (fun p => omap fst (load_zml_ec k p)) (fst text)
    end.

  (** prop_node_serializer_ini.cpp 27-59 with ec != nullptr: tree and message *)
  Fixpoint ini_loop_ec (fuel : nat) (text : str) (s : ini_state) : outcome (ini_state * option str) :=
    match fuel with
    | O => UB
    | S f =>
      match getline 1023 text with
      | (_, _, Full) => Ok (s, Some (lit "Error reading ini file, line too long"))
      | (buf, _, AtEof) => do s' <- ini_process s buf; Ok (s', None)
      | (buf, rest, AtLine) => do s' <- ini_process s buf; ini_loop_ec f rest s'
      end
    end.
  Definition read_ini_ec (text : str) : outcome (pn * option str) :=
    omap (fun r => (ini_root (fst r), snd r)) (ini_loop_ec (S (length text)) text (IniSt pn_empty None)).

  (** serialize.cpp 11-18: the formats registered *)
  Inductive format := Xml | Ini | Zml.
  Definition formats : list (str * format) := [(lit "xml", Xml); (lit "ini", Ini); (lit "zml", Zml)].
  (** factory.h 52-56, after registering the formats: the type is looked up by name (C38) *)
  Definition try_create (type : str) : option format :=
    option_map snd (List.find (fun e => str_eqb (fst e) type) formats).
  (** serialize.cpp 20-44 *)
  Definition make_serializer (type : str) (ec : ecptr) : outcome (option format * ecptr) :=
    match try_create type with
    | Some f => Ok (Some f, ec)
    | None => do ec <- set_error_or_throw ec (lit "Unsupported file format: " ++ type); Ok (None, ec)
    end.

  Definition noted (ec : ecptr) (m : option str) : ecptr := match m with Some m => Some (Err (-1) m) | None => ec end.

  (** prop_node_serializer_zml.cpp 265-272, _ini.cpp 27-59, _xml.cpp 58-67 into an empty tree.  The XML reader and, but
      for long lines, the INI reader do not use ec. *)
  Definition read_stream (depth : nat) (f : format) (folder text : str) (ec : ecptr) : outcome (pn * ecptr) :=
    match f, ec with
    | Xml, _ => do t <- xml_read pn_empty text; Ok (t, ec)
    | Ini, None => do t <- read_ini pn_empty text; Ok (t, None)
    | Ini, Some _ => do r <- read_ini_ec text; Ok (fst r, noted ec (snd r))
    | Zml, None => do t <- parse_zml (fun n => do p <- include_path folder n; load_zml depth p) text; Ok (t, None)
    | Zml, Some _ => do r <- parse_zml_ec folder (fun p => omap fst (load_zml_ec depth p)) text; Ok (fst (fst r), noted ec (snd (fst r)))
    end.
  (** prop_node_serializer.cpp 22-36 *)
  Definition serializer_load (depth : nat) (f : format) (name : str) (ec : ecptr) : outcome (pn * ecptr) :=
    match contents d name with
    | Some text => do folder <- parent_path name; read_stream depth f folder text ec
    | None => do ec <- set_error_or_throw ec (lit "Could not open " ++ name); Ok (pn_empty, ec)
    end.
  (** serialize.cpp 46-52 *)
  Definition load_file (depth : nat) (name : str) (ec : ecptr) : outcome (pn * ecptr) :=
    do ext <- extension_no_dot name;
    do r <- make_serializer ext ec;
    match fst r with
    | Some f => serializer_load depth f name (snd r)
    | None => do ec <- set_error_or_throw (snd r) (lit "Unsupported file format for " ++ name); Ok (pn_empty, ec)
    end.
  (** serialize.cpp 54-60 *)
  Definition load_file_as (depth : nat) (name type : str) (ec : ecptr) : outcome (pn * ecptr) :=
    do r <- make_serializer type ec;
    match fst r with
    | Some f => serializer_load depth f name (snd r)
    | None => do ec <- set_error_or_throw (snd r) (lit "Unknown file format: " ++ type); Ok (pn_empty, ec)
    end.

  (** ** saving: the disk afterwards and the result or the exception *)
  (** prop_node_serializer_zml.cpp 274-280, _ini.cpp 10-25, _xml.cpp 69-74 *)
  Definition write_stream (f : format) (t : pn) : outcome str :=
    match f with Xml => Ok (xml_write t) | Ini => Ok (write_ini t) | Zml => write_zml t end.
  Definition put (name text : str) : disk :=
    Disk (fun n => if str_eqb n name then Some text else contents d n) (can_write d).
  (** prop_node_serializer.cpp 38-49: opening the file for writing empties it.  When the writer throws, the model has
      the file empty; in the code it holds what was written before. *)
  Definition serializer_save (f : format) (t : pn) (name : str) (ec : ecptr) : disk * outcome ecptr :=
    if can_write d name then
      match write_stream f t with
      | Ok text => (put name text, Ok ec)
      | Throw => (put name [], Throw)
      | UB => (d, UB)
      end
    else (d, set_error_or_throw ec (lit "Could not create " ++ name)).
  Definition saved (ec : ecptr) : bool := match ec with Some e => err_good e | None => true end.
  Definition save_with (r : outcome (option format * ecptr)) (t : pn) (name : str) (msg : str) : disk * outcome (bool * ecptr) :=
    match r with
    | Ok (Some f, ec) => let (d', o) := serializer_save f t name ec in (d', omap (fun ec => (saved ec, ec)) o)
    | Ok (None, ec) => (d, omap (fun ec => (saved ec, ec)) (set_error_or_throw ec msg))
    | Throw => (d, Throw)
    | UB => (d, UB)
    end.
  (** serialize.cpp 62-68 *)
  Definition save_file (t : pn) (name : str) (ec : ecptr) : disk * outcome (bool * ecptr) :=
    save_with (do ext <- extension_no_dot name; make_serializer ext ec) t name (lit "Could not deduce file format for " ++ name).
  (** serialize.cpp 70-76 *)
  Definition save_file_as (t : pn) (name type : str) (ec : ecptr) : disk * outcome (bool * ecptr) :=
    save_with (make_serializer type ec) t name (lit "Unknown file format: " ++ type).
End Files.
