(** What a program may expect of variables of type dynarray: they hold values. *)
From Coq Require Import List Arith.
Import ListNotations.

Section Spec.
Context {T : Type}.

(** A variable is not (or no longer) constructed, has been moved from, or holds a list. *)
Inductive value := Absent | Moved | Holds (l : list T).
Definition values := nat -> value.
Definition put (vs : values) (i : nat) (v : value) : values := fun j => if j =? i then v else vs j.

(** What a program does with the variables. *)
Inductive action :=
| New (i n : nat) (v : T)        (* dynarray i( n, v ) *)
| NewEmpty (i : nat)             (* dynarray i *)
| NewCopy (i j : nat)            (* dynarray i( j ) *)
| NewMove (i j : nat)            (* dynarray i( std::move( j ) ) *)
| Assign (i j : nat)             (* i = j *)
| MoveAssign (i j : nat)         (* i = std::move( j ) *)
| Resize (i n : nat) (v : T)     (* i.resize( n, v ) *)
| Clear (i : nat)                (* i.clear() *)
| Fill (i : nat) (v : T)         (* i.assign( v ) *)
| SetAt (i k : nat) (v : T)      (* i[ k ] = v *)
| Destroy (i : nat).             (* i goes out of scope *)

Fixpoint replace_at (l : list T) (k : nat) (v : T) : list T :=
  match l, k with [], _ => [] | _ :: t, 0 => v :: t | x :: t, S k' => x :: replace_at t k' v end.

(** The effect on the values. [None]: the program may not do this. A variable that has been moved from may only be given a new
    value or be destroyed, and no variable may be assigned to itself. *)
Definition effect (vs : values) (a : action) : option values :=
  match a with
  | New i n v => match vs i with Absent => Some (put vs i (Holds (repeat v n))) | _ => None end
  | NewEmpty i => match vs i with Absent => Some (put vs i (Holds [])) | _ => None end
  | NewCopy i j => match vs i, vs j with Absent, Holds l => Some (put vs i (Holds l)) | _, _ => None end
  | NewMove i j => match vs i, vs j with Absent, Holds l => Some (put (put vs j Moved) i (Holds l)) | _, _ => None end
  | Assign i j => if i =? j then None else match vs i, vs j with Absent, _ => None | _, Holds l => Some (put vs i (Holds l)) | _, _ => None end
  | MoveAssign i j => match vs i, vs j with Absent, _ => None | _, Holds l => Some (put (put vs j Moved) i (Holds l)) | _, _ => None end
  | Resize i n v => match vs i with Absent => None | _ => Some (put vs i (Holds (repeat v n))) end
  | Clear i => match vs i with Absent => None | _ => Some (put vs i (Holds [])) end
  | Fill i v => match vs i with Holds l => Some (put vs i (Holds (map (fun _ => v) l))) | _ => None end
  | SetAt i k v => match vs i with Holds l => if k <? length l then Some (put vs i (Holds (replace_at l k v))) else None | _ => None end
  | Destroy i => match vs i with Absent => None | _ => Some (put vs i Absent) end
  end.
Fixpoint effects (vs : values) (p : list action) : option values :=
  match p with [] => Some vs | a :: r => match effect vs a with Some vs' => effects vs' r | None => None end end.
Definition nothing : values := fun _ => Absent.
End Spec.
