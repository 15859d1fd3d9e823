(** C28: paths. *)
From Coq Require Import Ascii String List Arith.
From Verif Require Import Base Str StrSpec StrModel PathSpec PathModel PathProofs.
Import ListNotations.

(** parent_path is what precedes the last separator (nothing if there is none), filename what follows it *)
Theorem C28_parts : forall p d f : str, path_parts p d f <-> parent_path p = Ok d /\ filename p = Ok f.
Proof. exact parts_assembled. Qed.
Print Assumptions C28_parts.

Example C28_parts_ex :
  parent_path (lit "a/b.c\d.e") = Ok (lit "a/b.c") /\ filename (lit "a/b.c\d.e") = Ok (lit "d.e") /\
  parent_path (lit "a") = Ok [] /\ filename (lit "a") = Ok (lit "a") /\
  path_parts (lit "a/b.c\d.e") (lit "a/b.c") (lit "d.e").
Proof. repeat split. apply C28_parts. repeat split. Qed.

(** stem + extension is the file name, split at its last dot, whenever the file name has a dot or the directory has none *)
Theorem C28_stem_extension : forall p d f s e : str,
  path_parts p d f -> name_parts f s e -> In dot f \/ ~ In dot d ->
  stem p = Ok s /\ extension p = Ok e /\ extension_no_dot p = Ok (tl e) /\ filename p = Ok (s ++ e).
Proof. exact extension_assembled. Qed.
Print Assumptions C28_stem_extension.

Example C28_stem_extension_ex :
  stem (lit "a.d/b.tar.gz") = Ok (lit "b.tar") /\ extension (lit "a.d/b.tar.gz") = Ok (lit ".gz") /\
  extension_no_dot (lit "a.d/b.tar.gz") = Ok (lit "gz") /\ stem (lit "x/.rc") = Ok [] /\ extension (lit "x/.rc") = Ok (lit ".rc") /\
  In dot (lit "b.tar.gz") /\ ~ In dot (lit "x").
Proof. repeat split. - right; left; reflexivity. - intros [H|[]]; discriminate H. Qed.

(** the stem is always right *)
Theorem C28_stem : forall p d f s e : str, path_parts p d f -> name_parts f s e -> stem p = Ok s.
Proof. exact stem_ok. Qed.
Print Assumptions C28_stem.

Example C28_stem_ex : stem (lit "a.d/b") = Ok (lit "b") /\ stem (lit "a.d/b.c") = Ok (lit "b").
Proof. split; reflexivity. Qed.

(** the extension is right exactly when the file name has a dot or the directory has none *)
Theorem C28_extension_exact : forall p d f s e : str,
  path_parts p d f -> name_parts f s e -> (extension p = Ok e <-> In dot f \/ ~ In dot d).
Proof. exact extension_iff. Qed.
Print Assumptions C28_extension_exact.

Example C28_extension_exact_ex : extension (lit "a.d/b") = Ok (lit ".d/b") /\ extension (lit "ad/b") = Ok [].
Proof. split; reflexivity. Qed.

(** a dot in a directory name makes stem + extension differ from the file name *)
Theorem C28_extension_refuted : exists p s e f, stem p = Ok s /\ extension p = Ok e /\ filename p = Ok f /\ s ++ e <> f.
Proof. exists (lit "a.d/b"), (lit "b"), (lit ".d/b"), (lit "b"). repeat split. discriminate. Qed.
Print Assumptions C28_extension_refuted.

(** replace_extension keeps everything up to the old extension and changes nothing but the extension *)
Theorem C28_replace_extension : forall p d f s e x : str,
  path_parts p d f -> name_parts f s e -> In dot f \/ ~ In dot d ->
  (exists b, p = b ++ e /\ replace_extension p x = b ++ dotted x) /\
  (x <> [] -> component x -> dot_free (tl (dotted x)) ->
   parent_path (replace_extension p x) = Ok d /\ stem (replace_extension p x) = Ok s /\
   extension (replace_extension p x) = Ok (dotted x) /\ filename (replace_extension p x) = Ok (s ++ dotted x)).
Proof. exact replace_extension_assembled. Qed.
Print Assumptions C28_replace_extension.

Example C28_replace_extension_ex :
  replace_extension (lit "a.d/b.tar.gz") (lit "zip") = lit "a.d/b.tar.zip" /\
  replace_extension (lit "a/b") (lit ".zip") = lit "a/b.zip" /\ replace_extension (lit "a/b.c") [] = lit "a/b".
Proof. repeat split. Qed.

(** for a file without extension in a directory with a dot, replace_extension drops the file name *)
Theorem C28_replace_extension_refuted : exists p x f, filename p = Ok f /\ f <> [] /\
  replace_extension p x = lit "a.txt" /\ filename (replace_extension p x) <> Ok (f ++ dotted x) /\
  parent_path p = Ok (lit "a.d") /\ parent_path (replace_extension p x) = Ok [].
Proof. exists (lit "a.d/b"), (lit "txt"), (lit "b"). repeat split; discriminate. Qed.
Print Assumptions C28_replace_extension_refuted.

(** p / q puts a separator between the two unless p is empty or ends in a separator or colon; separators in front
    of q are dropped only when one is added *)
Theorem C28_join : forall p q : str,
  (open_path p -> forall t, trimmed_left separator q t -> join_path p q = Ok (p ++ slash :: t)) /\
  (~ open_path p -> join_path p q = Ok (p ++ q)).
Proof. exact join_assembled. Qed.
Print Assumptions C28_join.

Example C28_join_ex :
  join_path (lit "a") (lit "//b/c") = Ok (lit "a/b/c") /\ join_path (lit "a/") (lit "b") = Ok (lit "a/b") /\
  join_path (lit "c:") (lit "b") = Ok (lit "c:b") /\ join_path [] (lit "/b") = Ok (lit "/b").
Proof. repeat split. Qed.

(** the file name of p / q is q and its parent is p, for a single component q *)
Theorem C28_join_name : forall p q : str,
  component q -> open_path p \/ (exists d c, p = d ++ [c] /\ separator c) ->
  exists r, join_path p q = Ok r /\ filename r = Ok q /\
    (open_path p -> parent_path r = Ok p) /\ (forall d c, p = d ++ [c] -> separator c -> parent_path r = Ok d).
Proof. exact join_name_assembled. Qed.
Print Assumptions C28_join_name.

Example C28_join_name_ex :
  component (lit "f.x") /\ open_path (lit "a/b") /\ join_path (lit "a/b") (lit "f.x") = Ok (lit "a/b/f.x").
Proof.
  split; [repeat constructor; intros [H|H]; discriminate H|]. split; [|reflexivity].
  exists (lit "a/"), "b"%char. repeat split; [intros [H|H]; discriminate H|discriminate].
Qed.

(** joining is associative whenever the middle path ends in a name *)
Theorem C28_join_assoc : forall a b c : str,
  open_path b -> (do x <- join_path a b; join_path x c) = (do y <- join_path b c; join_path a y).
Proof. exact assoc_assembled. Qed.
Print Assumptions C28_join_assoc.

Example C28_join_assoc_ex :
  (do x <- join_path (lit "a") (lit "/b"); join_path x (lit "c")) = Ok (lit "a/b/c") /\
  (do y <- join_path (lit "/b") (lit "c"); join_path (lit "a") y) = Ok (lit "a/b/c").
Proof. split; reflexivity. Qed.

(** parent_path / filename is the path itself, up to the kind of the last separator, if the parent ends in a name *)
Theorem C28_reconstruct_partial : forall p d f : str,
  path_parts p d f -> open_path d -> exists r, (do a <- parent_path p; do b <- filename p; join_path a b) = Ok r /\ same_but_separators p r.
Proof. exact reconstruct_assembled. Qed.
Print Assumptions C28_reconstruct_partial.

Example C28_reconstruct_ex : (do a <- parent_path (lit "a\b/c\d"); do b <- filename (lit "a\b/c\d"); join_path a b) = Ok (lit "a\b/c/d").
Proof. reflexivity. Qed.

(** for a file in the root directory it is not: the root is lost, and an absolute path becomes a relative one *)
Theorem C28_reconstruct_refuted : exists p a b r,
  has_parent_path p = true /\ is_absolute p = true /\
  parent_path p = Ok a /\ filename p = Ok b /\ join_path a b = Ok r /\ r = lit "a" /\ is_absolute r = false /\
  replace_filename p (lit "b") = Ok (lit "b") /\ concat_stem p (lit "x") = Ok (lit "ax").
Proof. exists (lit "/a"), [], (lit "a"), (lit "a"). repeat split. Qed.
Print Assumptions C28_reconstruct_refuted.

(** replace_filename keeps the directory and sets the file name *)
Theorem C28_replace_filename : forall p d f n : str,
  path_parts p d f -> open_path d -> component n ->
  replace_filename p n = Ok (d ++ slash :: n) /\ path_parts (d ++ slash :: n) d n.
Proof. exact replace_filename_assembled. Qed.
Print Assumptions C28_replace_filename.

Example C28_replace_filename_ex : replace_filename (lit "a.d/b.c") (lit "x") = Ok (lit "a.d/x").
Proof. reflexivity. Qed.

(** replace_stem and concat_stem keep directory and extension *)
Theorem C28_replace_stem : forall p d f s e n : str,
  path_parts p d f -> name_parts f s e -> In dot f \/ ~ In dot d -> open_path d \/ p = f -> component n ->
  exists r, replace_stem p n = Ok r /\ path_parts r d (n ++ e) /\
    exists r', concat_stem p n = Ok r' /\ path_parts r' d (s ++ n ++ e).
Proof. exact replace_stem_assembled. Qed.
Print Assumptions C28_replace_stem.

Example C28_replace_stem_ex :
  replace_stem (lit "a/b.c") (lit "x") = Ok (lit "a/x.c") /\ concat_stem (lit "b.c") (lit "_1") = Ok (lit "b_1.c").
Proof. split; reflexivity. Qed.

(** make_preferred changes nothing but the kind of separators, leaves no backslash, keeps the parts and is idempotent *)
Theorem C28_make_preferred : forall p : str,
  same_but_separators p (make_preferred p) /\ ~ In bslash (make_preferred p) /\
  (forall d f, path_parts p d f -> path_parts (make_preferred p) (make_preferred d) f) /\
  (~ In bslash p -> make_preferred p = p).
Proof. exact make_preferred_assembled. Qed.
Print Assumptions C28_make_preferred.

Example C28_make_preferred_ex : make_preferred (lit "a\b/c\d") = lit "a/b/c/d".
Proof. reflexivity. Qed.
