(** Strings: std::string as a list of bytes, and the std::string member functions used by /repo/xo. *)
From Coq Require Import Ascii String List Arith Bool NArith ZArith.
From Verif Require Import Base.
Import ListNotations.

Definition str := list ascii.

(** string literals *)
Definition lit (s : string) : str := list_ascii_of_string s.

Fixpoint str_eqb (a b : str) : bool :=
  match a, b with
  | [], [] => true
  | x :: s, y :: t => Ascii.eqb x y && str_eqb s t
  | _, _ => false
  end.

Definition nul : ascii := ascii_of_nat 0.
Definition lf : ascii := ascii_of_nat 10.
Definition cr : ascii := ascii_of_nat 13.
Definition tab : ascii := ascii_of_nat 9.
Definition vt : ascii := ascii_of_nat 11.
Definition ff : ascii := ascii_of_nat 12.
Definition dquote : ascii := ascii_of_nat 34.
Definition squote : ascii := ascii_of_nat 39.
Definition bslash : ascii := ascii_of_nat 92.
Definition dot : ascii := ascii_of_nat 46.

#[global] Arguments nul : simpl never.
#[global] Arguments lf : simpl never.
#[global] Arguments cr : simpl never.
#[global] Arguments tab : simpl never.
#[global] Arguments vt : simpl never.
#[global] Arguments ff : simpl never.
#[global] Arguments dquote : simpl never.
#[global] Arguments squote : simpl never.
#[global] Arguments bslash : simpl never.
#[global] Arguments dot : simpl never.

(** value of a (signed) char *)
Definition char_z (c : ascii) : Z :=
  let n := Z.of_N (N_of_ascii c) in if (n <? 128)%Z then n else (n - 256)%Z.

Definition in_set (set : str) (c : ascii) : bool := existsb (Ascii.eqb c) set.

(** const char* obtained from a std::string ends at its first NUL *)
Fixpoint c_str (s : str) : str :=
  match s with
  | [] => []
  | c :: t => if Ascii.eqb c nul then [] else c :: c_str t
  end.

(** std::string::substr( pos, n ): throws std::out_of_range if pos > size.  [None] for n is npos. *)
Definition substr (s : str) (pos : nat) (n : option nat) : outcome str :=
  if pos <=? length s then
    Ok (match n with Some n => firstn n (skipn pos s) | None => skipn pos s end)
  else Throw.

(** [p] is a prefix of [s] *)
Fixpoint starts_with (s p : str) {struct p} : bool :=
  match p, s with
  | [], _ => true
  | a :: p', b :: s' => Ascii.eqb a b && starts_with s' p'
  | _ :: _, [] => false
  end.

(** std::string::find( sub, pos ); [None] is npos *)
Fixpoint find_at (s sub : str) (i : nat) : option nat :=
  if starts_with s sub then Some i
  else match s with [] => None | _ :: t => find_at t sub (S i) end.
Definition find (s sub : str) (pos : nat) : option nat :=
  if pos <=? length s then find_at (skipn pos s) sub pos else None.

(** first index >= i of an element satisfying [p] *)
Fixpoint index_from (p : ascii -> bool) (s : str) (i : nat) : option nat :=
  match s with
  | [] => None
  | c :: t => if p c then Some i else index_from p t (S i)
  end.
(** last index *)
Fixpoint last_from (p : ascii -> bool) (s : str) (i : nat) (acc : option nat) : option nat :=
  match s with
  | [] => acc
  | c :: t => last_from p t (S i) (if p c then Some i else acc)
  end.

(** find_first_of, find_first_not_of( set, pos ), find_last_of, find_last_not_of( set ) *)
Definition find_first_of (s set : str) (pos : nat) : option nat := index_from (in_set set) (skipn pos s) pos.
Definition find_first_not_of (s set : str) (pos : nat) : option nat :=
  index_from (fun c => negb (in_set set c)) (skipn pos s) pos.
Definition find_last_of (s set : str) : option nat := last_from (in_set set) s 0 None.
Definition find_last_not_of (s set : str) : option nat := last_from (fun c => negb (in_set set c)) s 0 None.

(** compare( pos, n, other ) == 0 for pos <= size: equality with the substring *)
Definition compare_eq (s : str) (pos n : nat) (other : str) : bool := str_eqb (firstn n (skipn pos s)) other.

(** std::string::replace( pos, n, with ) for pos <= size *)
Definition replace_at (s : str) (pos n : nat) (with_ : str) : str := firstn pos s ++ with_ ++ skipn (pos + n) s.
