(** Model of /repo/xo/system/settings.h and settings.cpp.  Log messages are not modelled; the accessed flags of the schema, which are mutable, are not either.
    A setting is handled through its node, not a pointer to it. *)
From Coq Require Import Ascii String List Arith Bool ZArith.
From Verif Require Import Base Str StrModel CastSpec CastModel PnSpec PnModel SetSpec.
Import ListNotations.

Definition dot : ascii := "."%char.
(** the node a query finds *)
Definition query_node (t : pn) (id : str) : outcome (option pn) :=
  do p <- try_get_query t id dot; Ok (match p with Some p => node_at t p | None => None end).
Definition child_node (t : pn) (k : string) : option pn :=
  match try_get_child t (lit k) with Some i => option_map snd (nth_error (pn_children t) i) | None => None end.

Section Settings.
  (** strtod (string_cast.cpp 17-22) with its success flag, %g (82-87), comparison of doubles; from_prop_node of color and vec3 *)
  Context {D : Type} (to_d : str -> D * bool) (d_str : D -> str) (dle dlt : D -> D -> bool) (is_color is_vec3 : pn -> bool).

  (** settings.cpp 21-27 try_find_setting *)
  Definition try_find_setting (schema : pn) (id : str) : outcome (option pn) :=
    do n <- query_node schema id;
    Ok (match n with Some s => if has_key s (lit "default") then Some s else None | None => None end).

  (** bounds.h 66-73 from_str, for double *)
  Definition bounds_from_str (s : str) : outcome (option (D * D)) :=
    let '(lo, ok) := to_d s in
    if ok then
      match Str.find s (lit "..") 0 with
      | Some p => do r <- substr s (p + 2) None; let '(hi, ok2) := to_d r in Ok (if ok2 then Some (lo, hi) else None)
      | None => Ok (Some (lo, lo))
      end
    else Ok None.
  (** prop_node.h 323-329 get<double> *)
  Definition get_d (t : pn) : outcome D := let '(d, ok) := to_d (pn_value t) in if ok then Ok d else Throw.
  (** prop_node.h 335-338 get<double>( index ), 371-376 get_any with a default *)
  Definition get_d_at (t : pn) (i : nat) : outcome D := do j <- get_child_at t i; do kc <- vec_get (pn_children t) j; get_d (snd kc).
  Definition get_d_any (t : pn) (ks : list str) (def : D) : outcome D :=
    match try_get_any_child t ks with Some i => do kc <- vec_get (pn_children t) i; get_d (snd kc) | None => Ok def end.
  (** bounds.h 76-86 from_prop_node *)
  Definition bounds_from_pn (t : pn) : outcome (option (D * D)) :=
    if has_value t then bounds_from_str (pn_value t)
    else if 2 <=? pn_size t then
      do a <- get_d_at t 0; do lo <- get_d_any t [lit "min"; lit "lower"] a;
      do b <- get_d_at t 1; do hi <- get_d_any t [lit "max"; lit "upper"] b;
      Ok (Some (lo, hi))
    else Ok None.
  (** prop_node.h 356-361 try_get< bounds<double> >( "range" ) *)
  Definition range_of (s : pn) : outcome (option (D * D)) :=
    match child_node s "range" with Some r => bounds_from_pn r | None => Ok None end.
  (** bounds.h 20 is_within, math.h 86-87 clamp *)
  Definition is_within (b : D * D) (d : D) : bool := dle (fst b) d && dle d (snd b).
  Definition clamp_d (b : D * D) (d : D) : D := if dlt d (fst b) then fst b else if dlt (snd b) d then snd b else d.

  (** settings.cpp 44-51; try_get<T> (prop_node.h 348-354) gives an xo::optional, which is empty for the lowest int and for NaN (optional.h 13-48) *)
  Definition type_fails (type : str) (v : pn) : bool :=
    (str_eqb type (lit "float") && negb (let '(d, ok) := to_d (pn_value v) in ok && dle d d)) ||
    (str_eqb type (lit "int") && negb (let '(z, ok) := from_str_int KInt (pn_value v) in ok && negb (z =? kind_min KInt)%Z)) ||
    (str_eqb type (lit "bool") && negb (snd (from_str_bool (pn_value v) false))) ||
    (str_eqb type (lit "color") && negb (is_color v)) ||
    (str_eqb type (lit "vec3") && negb (is_vec3 v)).

  (** settings.cpp 29-91 try_set: the data after the call and the result *)
  Definition try_set (schema data : pn) (id : str) (v : pn) : outcome (pn * bool) :=
    do s <- try_find_setting schema id;
    match s with
    | None => Ok (data, false)
    | Some s =>
      let type := match child_node s "type" with Some t => pn_value t | None => [] end in
      match child_node s "default" with
      | None => Throw
      | Some dflt =>
        if pn_eqb v dflt || pn_is_empty v then do r <- erase_query data id dot; Ok (fst r, true)
        else if type_fails type v then Ok (data, false)
        else if match child_node s "allowed" with Some l => negb (existsb (fun kc => pn_eqb (snd kc) v) (pn_children l)) | None => false end then Ok (data, false)
        else
          do range <- range_of s;
          match range with
          | Some b =>
            do _ <- get_d dflt;
            let d := fst (to_d (pn_value v)) in
            let d' := if is_within b d then d else clamp_d b d in
            do r <- set_query data id (pn_of_value (d_str d')) dot; Ok (fst r, true)
          | None => do r <- set_query data id v dot; Ok (fst r, true)
          end
      end
    end.

  (** settings.cpp 93-100 *)
  Fixpoint set_recursive (schema data : pn) (id : str) (v : pn) {struct v} : outcome pn :=
    do s <- try_find_setting schema id;
    match s with
    | Some _ => do r <- try_set schema data id v; Ok (fst r)
    | None =>
      match v with
      | PN _ cs _ =>
        (fix go (cs : list (str * pn)) (data : pn) : outcome pn :=
           match cs with
           | [] => Ok data
           | kc :: r => do d <- set_recursive schema data (id ++ dot :: fst kc) (snd kc); go r d
           end) cs data
      end
    end.
  (** settings.cpp 111-117: the contents of the file; the version is checked and dropped *)
  Fixpoint load_children (schema data : pn) (cs : list (str * pn)) : outcome pn :=
    match cs with
    | [] => Ok data
    | kc :: r =>
      if str_eqb (fst kc) (lit "version") then
        do x <- from_str_version (pn_value (snd kc)) (Ver 0 0 0 0 []);
        if snd x then load_children schema data r else Throw
      else do d <- set_recursive schema data (fst kc) (snd kc); load_children schema d r
    end.
  (** settings.cpp 107-126: [file] is what data_file_ holds, if it exists *)
  Definition load (schema data : pn) (file : option pn) : outcome pn :=
    match file with Some f => load_children schema data (pn_children f) | None => Ok (pn_clear data) end.

  (** settings.h 61-68: the node that is converted *)
  Definition get_node (schema data : pn) (id : str) : outcome pn :=
    do n <- query_node data id;
    match n with
    | Some u => Ok u
    | None =>
      do s <- try_find_setting schema id;
      match s with
      | Some s => match child_node s "default" with Some d => Ok d | None => Throw end
      | None => Throw
      end
    end.

  (** settings.cpp 128-140: what is written to the file, which also becomes the data *)
  Definition saved (data : pn) (cur : ver) : pn :=
    if ((v_major cur =? 0) && (v_minor cur =? 0) && (v_patch cur =? 0) && (v_build cur =? 0))%Z && match v_postfix cur with [] => true | _ => false end
    then data else set_child data (lit "version") (pn_of_value (to_str_version cur)).

  (** a history *)
  Definition set_step (schema data : pn) (op : set_op) : outcome pn :=
    match op with SetOp id v => do r <- try_set schema data id v; Ok (fst r) | LoadOp f => load schema data f end.
  Fixpoint set_run (schema data : pn) (ops : list set_op) : outcome pn :=
    match ops with [] => Ok data | op :: r => do d <- set_step schema data op; set_run schema d r end.
End Settings.
