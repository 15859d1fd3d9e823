(** What a cache of files promises; independent of the model of file_resource_cache. *)
From Coq Require Import List Arith.
From Verif Require Import Base.
Import ListNotations.

Section Spec.
  Context {Path C T : Type}.
  (** a file: time of the last change (seconds) and contents; the files at one moment *)
  Definition fsys := Path -> option (nat * C).
  (** what happened to clock and files, latest moment first *)
  Definition moments := list (nat * fsys).

  (** files are not removed, their times do not run backwards, and no two versions have the same time *)
  Definition dated (h : moments) : Prop :=
    ForallOrdPairs (fun later earlier => forall p m v, snd earlier p = Some (m, v) ->
      exists m' v', snd later p = Some (m', v') /\ m <= m' /\ (m = m' -> v = v')) h.

  (** [t] was made from what file [p] contained at time [c] or later *)
  Definition made_from (create : C -> option T) (h : moments) (p : Path) (c : nat) (t : T) : Prop :=
    exists c' f m v, In (c', f) h /\ c <= c' /\ f p = Some (m, v) /\ create v = Some t.
End Spec.
