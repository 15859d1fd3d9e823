(** What a ZML document means: an abstract syntax of documents, their tokens, and the tree each one stands for.  Nothing here
    refers to the reader of /repo/xo/serialization/prop_node_serializer_zml.cpp; the only function of the model used is
    try_get_query (C14), by which references name nodes. *)
From Coq Require Import Ascii String List Arith Bool.
From Verif Require Import Base Str PnSpec PnModel ZmlSpec.
Import ListNotations.

Definition kids := list (str * pn).

(** the value of an item *)
Inductive content :=
| Text (s : str) (parts : list (str * str))   (* s${n1}s1${n2}s2... : text with the values of macros n1, n2, ... *)
| Use (name : str)                            (* $name : a copy of a macro *)
| Ref (query : str).                          (* @query : a copy of a node read before *)
Inductive item :=
| Set_ (key : str) (colon : bool) (c : content)                     (* key = c    key: c *)
| Open (key : str) (eq : option bool) (arr : bool) (body : list item)  (* key { ... }  key = [ ... ] *)
| More (arr : bool) (body : list item)                              (* { ... } after an item: more children for it *)
| Elem (c : content)                                                (* in an array: c *)
| ElemOpen (arr : bool) (body : list item)                          (* in an array: { ... } *)
| Incl (file : str).                                                (* << file >> *)

(** * tokens *)
Definition dollar : ascii := "$"%char.
Definition part_text (p : str * str) : str := lit "${" ++ fst p ++ lit "}" ++ snd p.
Definition content_token (c : content) : str :=
  match c with
  | Text s parts => s ++ concat (map part_text parts)
  | Use n => dollar :: n
  | Ref q => "@"%char :: q
  end.
Definition opening (arr : bool) : str := if arr then lit "[" else lit "{".
Definition closing (arr : bool) : str := if arr then lit "]" else lit "}".
Definition assign_token (colon : bool) : str := if colon then lit ": " else lit "=".
Fixpoint item_tokens (it : item) : list str :=
  match it with
  | Set_ k b c => [k; assign_token b; content_token c]
  | Open k eq arr body => k :: (match eq with Some b => [assign_token b] | None => [] end) ++ opening arr :: flat_map item_tokens body ++ [closing arr]
  | More arr body => opening arr :: flat_map item_tokens body ++ [closing arr]
  | Elem c => [content_token c]
  | ElemOpen arr body => opening arr :: flat_map item_tokens body ++ [closing arr]
  | Incl f => [lit "<<"; f; lit ">>"]
  end.

(** * well-formed documents: the tokens say what the syntax says *)
Definition holds (s sub : str) : Prop := exists a b, s = a ++ sub ++ b.
Definition content_ok (c : content) : Prop :=
  match c with
  | Text s parts =>
    ~ holds s (lit "${") /\ Forall (fun p => ~ In "}"%char (fst p) /\ ~ holds (snd p) (lit "${")) parts /\
    content_token c <> lit "{" /\ content_token c <> lit "[" /\
    (forall r, content_token c <> "@"%char :: r) /\ (forall x r, content_token c = dollar :: x :: r -> x = "{"%char)
  | Use n => exists x r, n = x :: r /\ x <> "{"%char
  | Ref q => True
  end.
Definition key_ok (k : str) : Prop :=
  (exists x r, k = x :: r /\ graphic x = true) /\ k <> lit "{" /\ k <> lit "[" /\ k <> lit "}" /\ k <> lit "<<".
(** [arr]: inside an array *)
Inductive item_ok : bool -> item -> Prop :=
| ok_set k b c : key_ok k -> content_ok c -> item_ok false (Set_ k b c)
| ok_open k eq arr body : key_ok k -> Forall (item_ok arr) body -> item_ok false (Open k eq arr body)
| ok_more arr body : Forall (item_ok arr) body -> item_ok false (More arr body)
| ok_elem c : content_ok c -> content_token c <> [] -> content_token c <> lit "]" -> content_token c <> lit "<<" -> item_ok true (Elem c)
| ok_elem_open arr body : Forall (item_ok arr) body -> item_ok true (ElemOpen arr body)
| ok_incl arr f : item_ok arr (Incl f).

(** * meaning *)
(** the latest macro of a name *)
Fixpoint latest (name : str) (env : kids) : option nat :=
  match env with
  | [] => None
  | e :: r =>
    match latest name r with
    | Some i => Some (S i)
    | None => if list_eq_dec ascii_dec (fst e) (dollar :: name) then Some 0 else None
    end
  end.
Fixpoint expand (env : kids) (parts : list (str * str)) : outcome str :=
  match parts with
  | [] => Ok []
  | (n, s) :: r =>
    match latest n env with
    | Some i => do t <- expand env r; Ok (match nth_error env i with Some e => pn_value (snd e) | None => [] end ++ s ++ t)
    | None => Throw
    end
  end.
(** a copy of the node that [look] finds, when [look c] is what it finds while the new node is [c]: the value is copied
    first, and then the children, among which may be the new node itself *)
Definition copy (look : pn -> option pn) : pn :=
  let v := match look pn_empty with Some u => pn_value u | None => [] end in
  match look (PN v [] false) with Some u => PN v (pn_children u) (pn_flag u) | None => PN v [] false end.
(** the new node, when the tree is [root c] and the macros are [env c] while the new node is [c] *)
Definition content_node (root : pn -> pn) (env : pn -> kids) (c : content) : outcome pn :=
  match c with
  | Text s parts => do v <- expand (env pn_empty) parts; Ok (PN (s ++ v) [] false)
  | Use n =>
    match latest n (env pn_empty) with
    | Some i => Ok (copy (fun c => option_map snd (nth_error (env c) i)))
    | None => Throw
    end
  | Ref q =>
    do p <- try_get_query (root pn_empty) q "."%char;
    match p with
    | Some p => Ok (copy (fun c => node_at (root c) p))
    | None => Throw
    end
  end.

Definition is_macro (k : str) : bool := match k with x :: _ => Ascii.eqb x dollar | [] => false end.

Section Meaning.
  (** the tree an included file has *)
  Context (include : str -> outcome pn).
  (** items one after the other: macros are known to the items that follow *)
  Definition items_meaning (ev : (kids -> pn) -> (kids -> kids) -> kids -> item -> outcome (kids * kids)) :=
    fix go (root : kids -> pn) (env : kids -> kids) (cs : kids) (l : list item) : outcome kids :=
      match l with
      | [] => Ok cs
      | it :: r => do x <- ev root env cs it; go root (fun c => env c ++ snd x) (fst x) r
      end.
  (** the children of a node after one more item, and the macros the item defines.  [cs] are the children so far;
      [root cs] is the whole tree and [env cs] are the macros known, when the node has children [cs].  [inside]: in the body
      of a macro, where a macro cannot be defined. *)
  Fixpoint item_meaning (inside : bool) (root : kids -> pn) (env : kids -> kids) (cs : kids) (it : item) : outcome (kids * kids) :=
    match it with
    | Set_ k _ c =>
      if is_macro k then
        if inside then UB
        else do m <- content_node (fun _ => root cs) (fun m => env cs ++ [(k, m)]) c; Ok (cs, [(k, m)])
      else do n <- content_node (fun n => root (cs ++ [(k, n)])) (fun n => env (cs ++ [(k, n)])) c; Ok (cs ++ [(k, n)], [])
    | Open k _ arr body =>
      if is_macro k then
        if inside then UB
        else do b <- items_meaning (item_meaning true) (fun _ => root cs) (fun b => env cs ++ [(k, PN [] b false)]) [] body;
             Ok (cs, [(k, PN [] b false)])
      else do b <- items_meaning (item_meaning inside) (fun b => root (cs ++ [(k, PN [] b false)])) (fun b => env (cs ++ [(k, PN [] b false)])) [] body;
           Ok (cs ++ [(k, PN [] b false)], [])
    | More arr body =>
      match rev cs with
      | [] => Throw
      | (k, PN v b0 a) :: r =>
        do b <- items_meaning (item_meaning inside) (fun b => root (rev r ++ [(k, PN v b a)])) (fun b => env (rev r ++ [(k, PN v b a)])) b0 body;
        Ok (rev r ++ [(k, PN v b a)], [])
      end
    | Elem c =>
      do n <- content_node (fun n => root (cs ++ [([], n)])) (fun n => env (cs ++ [([], n)])) c; Ok (cs ++ [([], n)], [])
    | ElemOpen arr body =>
      do b <- items_meaning (item_meaning inside) (fun b => root (cs ++ [([], PN [] b false)])) (fun b => env (cs ++ [([], PN [] b false)])) [] body;
      Ok (cs ++ [([], PN [] b false)], [])
    | Incl f => do t <- include f; Ok (cs ++ pn_children t, [])
    end.
  Definition meaning (doc : list item) : outcome pn :=
    omap (fun cs => PN [] cs false) (items_meaning (item_meaning false) (fun cs => PN [] cs false) (fun _ => []) [] doc).
End Meaning.
