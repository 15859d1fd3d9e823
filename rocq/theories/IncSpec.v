(** What a file with include directives means; independent of the model of the loader.
    Paths are combined with the path operations of C28, trees with prop_node::merge (C16). *)
From Coq Require Import Ascii String List Arith.
From Verif Require Import Base Str StrSpec PnSpec PnModel PathModel.
Import ListNotations.

(** the first child of [c] named [k] has value [v] *)
Definition item (c : pn) (k v : str) : Prop :=
  exists i n, first_child c k i /\ nth_error (pn_children c) i = Some (k, n) /\ pn_value n = v.

(** file [f] as named in file [name] *)
Definition beside (name f p : str) : Prop := exists d, parent_path name = Ok d /\ join_path d f = Ok p.

Definition yes_words : list str := map lit ["1"; "true"; "yes"]%string.
Definition no_words : list str := map lit ["0"; "false"; "no"]%string.
Definition wants_merge (c : pn) : Prop := exists w, item c (lit "merge_children") w /\ In w yes_words.
Definition wants_insert (c : pn) : Prop :=
  ~ In (lit "merge_children") (pn_keys c) \/ exists w, item c (lit "merge_children") w /\ In w no_words.

Section Include.
  (** the files that can be loaded, and the name of the directive *)
  Context (files : str -> outcome pn) (directive : str).

  (** what directive node [c] in file [name] refers to *)
  Definition refers (name : str) (c : pn) (p : str) : Prop := exists f, item c (lit "file") f /\ beside name f p.

  (** [loaded n name t]: with at most [n] files nested, file [name] loads as [t].
      A directive is replaced by the root node of the file it names, in place; with merge_children, what that root
      node holds is merged into the parent instead, where the parent's own values win. *)
  Inductive loaded : nat -> str -> pn -> Prop :=
  | loaded_file n name t t' : files name = Ok t -> expanded n name t t' -> loaded (S n) name (set_accessed_recursively false t')
  with expanded : nat -> str -> pn -> pn -> Prop :=
  | expanded_insert n name v cs cs' a : expanded_list n name cs cs' -> expanded n name (PN v cs a) (PN v cs' a)
  | expanded_merge n name v before before' c after a p rv rk r ra t' :
      expanded_list n name before before' ->
      refers name c p -> wants_merge c -> loaded n p (PN rv [(rk, r)] ra) ->
      expanded n name (merge (PN v (before' ++ after) a) r false) t' ->
      expanded n name (PN v (before ++ (directive, c) :: after) a) t'
  with expanded_list : nat -> str -> list (str * pn) -> list (str * pn) -> Prop :=
  | expanded_nil n name : expanded_list n name [] []
  | expanded_keep n name k c c' r r' : k <> directive ->
      expanded n name c c' -> expanded_list n name r r' -> expanded_list n name ((k, c) :: r) ((k, c') :: r')
  | expanded_include n name c p rv e ra r r' :
      refers name c p -> wants_insert c -> loaded n p (PN rv [e] ra) -> expanded_list n name r r' ->
      expanded_list n name ((directive, c) :: r) (e :: r').

  (** directive [c] stands somewhere in [t], outside other directives *)
  Inductive directive_in (c : pn) : pn -> Prop :=
  | dir_here v cs a : In (directive, c) cs -> directive_in c (PN v cs a)
  | dir_below v cs a k n : In (k, n) cs -> k <> directive -> directive_in c n -> directive_in c (PN v cs a).

  (** no node of [t] is a directive *)
  Inductive no_directive : pn -> Prop :=
  | no_dir v cs a : Forall (fun kc => fst kc <> directive /\ no_directive (snd kc)) cs -> no_directive (PN v cs a).
End Include.
