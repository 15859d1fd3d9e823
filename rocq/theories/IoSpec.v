(** Vocabulary for element streams, data files and debug recordings. *)
From Coq Require Import Ascii String List Arith Bool.
From Verif Require Import Str StrModel.
Import ListNotations.

(** values that are streamed *)
Inductive item (T : Type) := Num (x : T) | Vec (x y z : T) | Quat (w x y z : T).
Arguments Num {T}. Arguments Vec {T}. Arguments Quat {T}.
Inductive kind := KNum | KVec | KQuat.
Definition kind_of {T} (i : item T) : kind := match i with Num _ => KNum | Vec _ _ _ => KVec | Quat _ _ _ _ => KQuat end.
(** the elements an item takes in a stream, in order *)
Definition elements {T} (i : item T) : list T := match i with Num x => [x] | Vec x y z => [x; y; z] | Quat w x y z => [w; x; y; z] end.
Definition all_elements {T} (l : list (item T)) : list T := flat_map elements l.

(** white space between words *)
Definition spaces (s : str) : Prop := Forall (fun c => In c whitespace) s.
(** words, each followed by white space *)
Fixpoint words_text {T} (l : list (str * T * str)) : str := match l with [] => [] | (w, _, sep) :: r => w ++ sep ++ words_text r end.

(** texts that a reader takes for a value, up to white space or the end *)
Section Words.
  Context {T : Type} (parse : str -> option T * nat).
  Definition is_word (w : str) (t : T) : Prop := w <> [] /\ Forall (fun c => ~ In c whitespace) w /\
    (forall c r, In c whitespace -> parse (w ++ c :: r) = (Some t, length w)) /\ parse w = (Some t, length w).
  (** words of values, each followed by white space; the values *)
  Definition well_spaced (l : list (str * T * str)) : Prop := Forall (fun x => is_word (fst (fst x)) (snd (fst x)) /\ snd x <> [] /\ spaces (snd x)) l.
  Definition values (l : list (str * T * str)) : list T := map (fun x => snd (fst x)) l.
End Words.

(** recordings: a list of frames, each with at most one value per label *)
Section Record.
  Context {L T : Type} (leq : L -> L -> bool).
  Fixpoint value_in (frame : list (L * T)) (l : L) : option T := match frame with [] => None | (k, v) :: r => if leq k l then Some v else value_in r l end.
  (** the frames, last one first: a value joins the last frame unless that has one for its label already *)
  Definition record (frames : list (list (L * T))) (x : L * T) : list (list (L * T)) :=
    match frames with
    | [] => [[x]]
    | f :: r => match value_in f (fst x) with None => (f ++ [x]) :: r | Some _ => [x] :: frames end
    end.
  Definition recording (h : list (L * T)) : list (list (L * T)) := rev (fold_left record h []).
End Record.
