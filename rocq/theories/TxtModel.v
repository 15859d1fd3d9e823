(** Model of the texts of property trees: /repo/xo/container/prop_node.cpp (to_stream, to_str) and /repo/xo/container/prop_node_tools.cpp
    (prop_node_align_width, log_prop_node, log_unaccessed, to_str_unaccessed, make_str_from_prop_node).
    Logging is modelled by the list of messages, level and text; that a text is put together from pieces is not observable. *)
From Coq Require Import Ascii String List Arith Bool ZArith.
From Verif Require Import Base Str PnSpec PnModel.
Import ListNotations.

Definition spaces (n : nat) : str := repeat " "%char n.

(** prop_node_tools.cpp 8-17 *)
Fixpoint align_width (t : pn) (indent depth : nat) : nat :=
  match t with
  | PN _ cs _ => fold_left (fun w kc => Nat.max (Nat.max w (depth * indent + length (fst kc))) (align_width (snd kc) indent (S depth))) cs 0
  end.

(** string( align - n, ' ' ): size_t wraps around, and the constructor throws length_error *)
Definition padding (align n : nat) : outcome str := if n <=? align then Ok (spaces (align - n)) else Throw.

(** prop_node.cpp 317-334 *)
Fixpoint to_stream (t : pn) (depth align : nat) : outcome str :=
  match t with
  | PN _ cs _ =>
    let align := if align =? 0 then align_width t 2 depth else align in
    (fix go (cs : list (str * pn)) : outcome str :=
       match cs with
       | [] => Ok []
       | kc :: r =>
         let key := spaces (depth * 2) ++ fst kc in
         do value <- (if has_value (snd kc) || (pn_size (snd kc) =? 0) then do p <- padding align (length key); Ok (p ++ lit " = " ++ pn_value (snd kc)) else Ok []);
         do below <- to_stream (snd kc) (S depth) align;
         do rest <- go r;
         Ok (key ++ value ++ [lf] ++ below ++ rest)
       end) cs
  end.
(** 336-341 *)
Definition to_str (t : pn) : outcome str := to_stream t 0 0.
(** the flags after to_stream: get_str() on line 327 marks the node (prop_node.h 131) *)
Fixpoint after_to_stream (t : pn) : pn :=
  match t with
  | PN v cs a => PN v (map (fun kc => (fst kc, let c := after_to_stream (snd kc) in if has_value (snd kc) || (pn_size (snd kc) =? 0) then access c else c)) cs) a
  end.

(** log levels are integers here (log_level.h 8-18); info is 3 *)
Definition message : Type := Z * str.
Definition info_level : Z := 3.
(** int( key[1] - '0' ), char being signed *)
Definition signed_char (x : ascii) : Z := let n := Z.of_nat (nat_of_ascii x) in if (n <? 128)%Z then n else (n - 256)%Z.

(** prop_node_tools.cpp 28-38 *)
Definition logged_name (key : str) : Z * str :=
  match key with
  | x :: y :: r => if Ascii.eqb x "@"%char then ((signed_char y - 48)%Z, r) else (info_level, key)
  | _ => (info_level, key)
  end.
(** 19-45 *)
Fixpoint log_prop_node (t : pn) (depth align : nat) : outcome (list message) :=
  match t with
  | PN _ cs _ =>
    let align := if align =? 0 then align_width t 2 depth else align in
    (fix go (cs : list (str * pn)) : outcome (list message) :=
       match cs with
       | [] => Ok []
       | kc :: r =>
         let key := spaces (depth * 2) ++ snd (logged_name (fst kc)) in
         do value <- (if has_value (snd kc) || (pn_size (snd kc) =? 0) then do p <- padding align (length key); Ok (p ++ lit " = " ++ pn_value (snd kc)) else Ok []);
         do below <- log_prop_node (snd kc) (S depth) align;
         do rest <- go r;
         Ok ((fst (logged_name (fst kc)), key ++ value) :: below ++ rest)
       end) cs
  end.

(** 53-59, 74-80 *)
Definition unaccessed_text (depth : nat) (kc : str * pn) : str :=
  spaces (depth * 2) ++ fst kc ++
  (if is_accessed (snd kc) then [] else (if has_value (snd kc) then lit " = " ++ pn_value (snd kc) else []) ++ lit " *").
(** 47-64 *)
Fixpoint log_unaccessed (t : pn) (level : Z) (depth : nat) : list message :=
  match t with
  | PN _ cs _ => flat_map (fun kc => (if 0 <? count_unaccessed (snd kc) then [(level, unaccessed_text depth kc)] else []) ++ log_unaccessed (snd kc) level (S depth)) cs
  end.
(** 66-86 *)
Fixpoint to_str_unaccessed_from (t : pn) (s : str) (depth : nat) : str :=
  match t with
  | PN _ cs _ => fold_left (fun s kc => to_str_unaccessed_from (snd kc) (if 0 <? count_unaccessed (snd kc) then s ++ unaccessed_text depth kc ++ [lf] else s) (S depth)) cs s
  end.
(** 88-94 *)
Definition to_str_unaccessed (t : pn) : str := to_str_unaccessed_from t [] 0.

(** 136-150; that get_str() marks the nodes is left out *)
Fixpoint make_str (t : pn) : str :=
  match t with
  | PN v cs _ =>
    match cs with
    | [] => v
    | _ =>
      let arr := is_array t in
      (match v with [] => v | _ => v ++ lit " " end) ++ (if arr then lit "[" else lit "{") ++
      flat_map (fun kc => (if arr then lit " " else lit " " ++ fst kc ++ lit " = ") ++ make_str (snd kc)) cs ++ (if arr then lit " ]" else lit " }")
    end
  end.
