(** Model of the ZML reader and writer (/repo/xo/serialization/prop_node_serializer_zml.cpp).  zml_error is
    modelled for ec == nullptr, where it throws (error_code.cpp 15-21); its message is not modelled. *)
From Coq Require Import Ascii String List Arith Bool.
From Verif Require Import Base Str StrModel PnSpec PnModel TokSpec TokModel.
Import ListNotations.

(** prop_node_serializer_zml.cpp 154-156 *)
Definition zml_cfg : lexcfg := make_cfg
  [lit "="; lit ": "; lit "{"; lit "}"; lit "["; lit "]"; lit "#"; lit "<<"; lit ">>"; lit "//"; lit "/*"; lit "*/"]
  [" "%char; lf; cr; tab; vt] [dquote; squote].

(** prop_node_serializer_zml.cpp 28-44; out of fuel is UB *)
Fixpoint zml_token_loop (fuel : nat) (s : cs) : outcome (str * cs) :=
  match fuel with
  | O => UB
  | S f =>
    do r <- get_token zml_cfg s;
    let (t, s) := r in
    if str_eqb t (lit "#") || str_eqb t (lit "//") then zml_token_loop f (snd (get_line s))
    else if str_eqb t (lit "/*") then
      do r <- seek_past (lit "*/") s;
      if fst r then zml_token_loop f (snd r) else Throw
    else Ok (t, s)
  end.
Definition get_zml_token (s : cs) : outcome (str * cs) := zml_token_loop (S (length (cs_rest s))) s.

(** isgraph in the C locale *)
Definition isgraph (x : ascii) : bool := (33 <=? nat_of_ascii x) && (nat_of_ascii x <=? 126).

(** a node, as the address it has inside the root or the macros *)
Record loc := Loc { in_macros : bool; loc_path : list nat }.

(** results that may run out of fuel *)
Definition zres (A : Type) : Type := option (outcome A).
Definition zbind {A B} (o : outcome A) (f : A -> zres B) : zres B :=
  match o with Ok a => f a | Throw => Some Throw | UB => Some UB end.
Definition zbind' {A B} (o : zres A) (f : A -> zres B) : zres B :=
  match o with Some o => zbind o f | None => None end.

Section Reader.
  (** where tokens come from: get_zml_token in the code *)
  Context {src : Type} (next : src -> outcome (str * src)).
  (** 59-64: the tree of an included file, by the name written in the document *)
  Context (include : str -> outcome pn).

  Record zst := ZSt { z_src : src; z_root : pn; z_macros : pn }.

  Definition tree_of (l : loc) (s : zst) : pn := if in_macros l then z_macros s else z_root s.
  Definition modify (l : loc) (f : pn -> pn) (s : zst) : zst :=
    if in_macros l then ZSt (z_src s) (z_root s) (update_at (z_macros s) (loc_path l) f)
    else ZSt (z_src s) (update_at (z_root s) (loc_path l) f) (z_macros s).
  Definition children_at (l : loc) (s : zst) : list (str * pn) :=
    match node_at (tree_of l s) (loc_path l) with Some n => pn_children n | None => [] end.
  (** parent.add_child( key ) and the address of the new node *)
  Definition new_child (l : loc) (key : str) (s : zst) : loc * zst :=
    (Loc (in_macros l) (loc_path l ++ [length (children_at l s)]), modify l (fun n => add_child n key pn_empty) s).

  Definition tok (s : zst) : outcome (str * zst) :=
    do r <- next (z_src s); Ok (fst r, ZSt (snd r) (z_root s) (z_macros s)).

  (** *dst = *src, member-wise: the value first, then the children (a copy made before the old ones go), then the
      flag.  [dst] may be inside [src].  111, 119. *)
  Definition assign (dst source : loc) (s : zst) : zst :=
    if Bool.eqb (in_macros dst) (in_macros source) && path_eqb (loc_path dst) (loc_path source) then s
    else
      let node s := match node_at (tree_of source s) (loc_path source) with Some n => n | None => pn_empty end in
      let s1 := modify dst (fun n => PN (pn_value (node s)) (pn_children n) (pn_flag n)) s in
      modify dst (fun n => PN (pn_value n) (pn_children (node s1)) (pn_flag (node s1))) s1.

  (** find_if over macros.rbegin() .. rend(): the last macro satisfying [p], as its index *)
  Fixpoint last_index (p : str -> bool) (cs : list (str * pn)) (i : nat) (acc : option nat) : option nat :=
    match cs with
    | [] => acc
    | (k, _) :: r => last_index p r (S i) (if p k then Some i else acc)
    end.

  (** 125-139: [done] is the text before position p, [rest] the text from p.  The access flag set by get_str on
      the macro is not tracked. *)
  Fixpoint inline_loop (fuel : nat) (macros : list (str * pn)) (done rest : str) : outcome str :=
    match fuel with
    | O => UB
    | S f =>
      match Str.find rest (lit "${") 0 with
      | None => Ok (done ++ rest)
      | Some p =>
        match index_from (fun x => Ascii.eqb x "}"%char) (skipn p rest) p with
        | None => Throw
        | Some pe =>
          let name := firstn (pe - p - 2) (skipn (p + 2) rest) in
          match last_index (fun k => str_eqb name (skipn 1 k)) macros 0 None with
          | None => Throw
          | Some i =>
            match nth_error macros i with
            | Some (_, m) => inline_loop f macros (done ++ firstn p rest ++ pn_value m) (skipn (pe + 1) rest)
            | None => UB
            end
          end
        end
      end
    end.

  (** 107-143: store the value token [t] in the node at [np] *)
  Definition assign_value (np : loc) (t : str) (s : zst) : outcome zst :=
    if str_begins_with_char t "@"%char then
      do q <- substr t 1 None;
      do r <- try_get_query (z_root s) q "."%char;
      match r with
      | Some p => Ok (assign np (Loc false p) s)
      | None => Throw
      end
    else if (2 <=? length t) && Ascii.eqb (nth 0 t nul) "$"%char && negb (Ascii.eqb (nth 1 t nul) "{"%char) then
      match last_index (fun k => str_eqb t k) (pn_children (z_macros s)) 0 None with
      | Some i => Ok (assign np (Loc true [i]) s)
      | None => Throw
      end
    else
      do v <- inline_loop (S (length t)) (pn_children (z_macros s)) [] t;
      Ok (modify np (fun n => set_value n v) s).

  (** 70-100: the node that receives the value, and the value token.  A macro defined while reading the body of
      another macro may move the node [parent] refers to: undefined from there on. *)
  Definition item_head (close : str) (parent : loc) (t : str) (s : zst) : outcome (loc * str * zst) :=
    if str_eqb close (lit "]") then let (np, s) := new_child parent [] s in Ok (np, t, s)
    else if str_eqb t (lit "{") || str_eqb t (lit "[") then
      match length (children_at parent s) with
      | O => Throw
      | S n => Ok (Loc (in_macros parent) (loc_path parent ++ [n]), t, s)
      end
    else
      do r <- (match t with
        | [] => UB
        | x :: _ =>
          if Ascii.eqb x "$"%char then (if in_macros parent then UB else Ok (new_child (Loc true []) t s))
          else if negb (isgraph x) then Throw
          else Ok (new_child parent t s)
        end);
      let (np, s) := r in
      do r <- tok s;
      let (t, s) := r in
      if str_eqb t (lit "=") || str_eqb t (lit ": ") then
        do r <- tok s; let (t, s) := r in Ok (np, t, s)
      else if str_eqb t (lit "{") || str_eqb t (lit "[") then Ok (np, t, s)
      else Throw.

  (** 147-149 *)
  Definition pop_macros (n : nat) (s : zst) : zst :=
    ZSt (z_src s) (z_root s) (PN (pn_value (z_macros s)) (firstn n (pn_children (z_macros s))) (pn_flag (z_macros s))).

  (** 46-150; [mc] is macro_count *)
  Fixpoint read_zml_layer (fuel : nat) (close : str) (parent : loc) (mc : nat) (s : zst) : zres zst :=
    match fuel with
    | O => None
    | S f =>
      zbind (tok s) (fun r => let (t, s) := r in
      if str_eqb t close then Some (Ok (pop_macros mc s))
      else match t with
      | [] => Some Throw
      | _ =>
        if str_eqb t (lit "<<") then
          zbind (tok s) (fun r => let (name, s) := r in
          zbind (tok s) (fun r => let (e, s) := r in
          if str_eqb e (lit ">>") then
            zbind (include name) (fun inc =>
            read_zml_layer f close parent mc (modify parent (fun n => append n inc) s))
          else Some Throw))
        else
          zbind (item_head close parent t s) (fun r => let '(np, t, s) := r in
          if str_eqb t (lit "{") then
            zbind' (read_zml_layer f (lit "}") np (pn_size (z_macros s)) s) (read_zml_layer f close parent mc)
          else if str_eqb t (lit "[") then
            zbind' (read_zml_layer f (lit "]") np (pn_size (z_macros s)) s) (read_zml_layer f close parent mc)
          else zbind (assign_value np t s) (read_zml_layer f close parent mc))
      end)
    end.
End Reader.
Arguments zst : clear implicits.

(** 152-161; the fuel suffices (proved), so the last case does not occur *)
Definition parse_zml_stream (include : str -> outcome pn) (s : cs) : outcome pn :=
  match read_zml_layer get_zml_token include (S (length (cs_rest s))) [] (Loc false []) 0 (ZSt s pn_empty pn_empty) with
  | Some r => omap (@z_root cs) r
  | None => UB
  end.
(** 163-167: C string; 265-272, 289-293: std::string *)
Definition parse_zml (include : str -> outcome pn) (text : str) : outcome pn := parse_zml_stream include (cs_of_string text).
Definition parse_zml_cstr (include : str -> outcome pn) (text : str) : outcome pn := parse_zml_stream include (cs_of_cstr text).

(** * writer; xo_error_if throws (assert.h 6-36) *)
Definition zml_special : str := lit "{}[]#<>" ++ [bslash; "/"%char].

(** 169-180 *)
Definition write_kvp (label : str) (t : pn) (equals : str) (inside_array : bool) : outcome str :=
  let show_label := match label with [] => false | _ => true end in
  let show_value := has_value t || (pn_size t =? 0) in
  if negb show_label && show_value && negb inside_array then Throw
  else Ok ((if show_label then try_quoted label zml_special else []) ++
           (if show_label && show_value then equals else []) ++
           (if show_value then try_quoted (pn_value t) zml_special else [])).

Definition bracket (arr : bool) (a b : str) : str := if arr then a else b.
Definition label_space (label : str) : str := match label with [] => [] | _ => lit " " end.

(** 182-201 *)
Fixpoint write_one_line (label : str) (t : pn) (inside_array : bool) : outcome str :=
  match t with
  | PN v cs _ =>
    do k <- write_kvp label t (lit " = ") inside_array;
    match cs with
    | [] => Ok k
    | _ =>
      let arr := is_array t in
      do body <- (fix go (cs : list (str * pn)) (sep : str) : outcome str :=
        match cs with
        | [] => Ok []
        | (l, c) :: r => do x <- write_one_line l c arr; do y <- go r (lit " "); Ok (sep ++ x ++ y)
        end) cs [];
      Ok (k ++ label_space label ++ bracket arr (lit "[ ") (lit "{ ") ++ body ++ bracket arr (lit " ]") (lit " }"))
    end
  end.

(** 203-246; 80 is max_oneliner_length *)
Fixpoint write_node (label : str) (t : pn) (level : nat) (inside_array : bool) : outcome str :=
  match t with
  | PN v cs _ =>
    let indent := repeat tab (level - 1) in
    match cs with
    | [] => do k <- write_kvp label t (lit " = ") inside_array; Ok (indent ++ k)
    | _ =>
      let arr := is_array t in
      let multi :=
        do k <- write_kvp label t (lit " = ") inside_array;
        do body <- (fix go (cs : list (str * pn)) : outcome str :=
          match cs with
          | [] => Ok []
          | (l, c) :: r => do x <- write_node l c (S level) arr; do y <- go r; Ok (x ++ [lf] ++ y)
          end) cs;
        Ok (indent ++ k ++ label_space label ++
            (if level =? 0 then [] else bracket arr (lit "[") (lit "{") ++ [lf]) ++ body ++
            (if level =? 0 then [] else indent ++ bracket arr (lit "]") (lit "}"))) in
      if negb (level =? 0) && (count_layers t <=? 2) && (count_children t <=? 5) then
        do one <- write_one_line label t arr;
        if level + length label + 1 + length one <=? 80 then Ok (indent ++ one) else multi
      else multi
    end
  end.

(** 248-263 *)
Fixpoint write_concise (label : str) (t : pn) (level : nat) (inside_array : bool) : outcome str :=
  match t with
  | PN v cs _ =>
    do k <- write_kvp label t (lit "=") inside_array;
    match cs with
    | [] => Ok k
    | _ =>
      let arr := is_array t in
      do body <- (fix go (cs : list (str * pn)) (sep : str) : outcome str :=
        match cs with
        | [] => Ok []
        | (l, c) :: r => do x <- write_concise l c (S level) arr; do y <- go r (lit " "); Ok (sep ++ x ++ y)
        end) cs [];
      Ok (k ++ (if level =? 0 then [] else bracket arr (lit "[") (lit "{")) ++ body ++
          (if level =? 0 then [] else bracket arr (lit "]") (lit "}")))
    end
  end.

(** 274-280, 282-287 *)
Definition write_zml (t : pn) : outcome str := if pn_is_empty t then Ok [] else write_node [] t 0 false.
Definition write_zml_concise (t : pn) : outcome str := write_concise [] t 0 false.
