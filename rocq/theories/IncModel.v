(** Model of the include resolution in /repo/xo/serialization/serialize.cpp. *)
From Coq Require Import Ascii String List Arith Bool.
From Verif Require Import Base Str StrModel CastModel PnSpec PnModel PathModel.
Import ListNotations.

(** string_cast.cpp 155-159: path from text never fails; 24-31: bool *)
Definition path_of_str (s : str) : option str := Some s.
Definition bool_of_str (s : str) : option bool := let r := from_str_bool s false in if snd r then Some (fst r) else None.

Section Include.
  (** serialize.cpp 46-52: load_file, external here (one serializer per extension); it gives a tree or throws *)
  Context (files : str -> outcome pn) (directive : str).

  (** serialize.cpp 80-115: [load] is load_file_with_include one level deeper; the iterator splits the children into those
      before it and those from it on. prop_node.cpp 80-83, 85-88 for erase and insert. Fuel bounds the number of
      iterations and the nesting; running out is UB. The accessed flags set by get are not modelled: line 123 clears all
      flags of what is returned. *)
  Fixpoint resolve_loop (load : str -> outcome pn) (filename : str) (fuel : nat) (v : str) (a : bool)
    (before from : list (str * pn)) : outcome pn :=
    match fuel with
    | O => UB
    | S fuel =>
      match from with
      | [] => Ok (PN v before a)
      | kc :: rest =>
        if str_eqb (fst kc) directive then
          do d <- parent_path filename;
          do f <- pn_get_key path_of_str (snd kc) (lit "file");
          do p <- join_path d f;
          do m <- pn_get_key_def bool_of_str (snd kc) (lit "merge_children") false;
          do inc <- load p;
          match pn_children inc with
          | [e] =>
            if m : bool then
              match merge (PN v (before ++ rest) a) (snd e) false with
              | PN v' cs a' => resolve_loop load filename fuel v' a' [] cs
              end
            else resolve_loop load filename fuel v a before (e :: rest)
          | _ => Throw
          end
        else
          match snd kc with
          | PN cv ccs ca =>
            do c' <- resolve_loop load filename fuel cv ca [] ccs;
            resolve_loop load filename fuel v a (before ++ [(fst kc, c')]) rest
          end
      end
    end.

  (** serialize.cpp 117-126; [depth] = 100 - level *)
  Fixpoint load_include (fuel depth : nat) (filename : str) : outcome pn :=
    match depth with
    | O => Throw
    | S depth =>
      do t <- files filename;
      match t with
      | PN v cs a => do t' <- resolve_loop (load_include fuel depth) filename fuel v a [] cs; Ok (set_accessed_recursively false t')
      end
    end.
  (** serialize.cpp 128-131 *)
  Definition load_file_with_include (fuel : nat) (filename : str) : outcome pn := load_include fuel 100 filename.
End Include.
