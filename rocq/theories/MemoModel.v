(** Model of /repo/xo/utility/memoize.h.  Argument tuples are keys; std::map finds by equality of keys. *)
From Coq Require Import List Arith Bool.
From Verif Require Import Base Conc MemoSpec.
Import ListNotations.

Section Memo.
  Context {K V : Type} (eqb : K -> K -> bool).

  Fixpoint mem_find (m : list (K * V)) (k : K) : option V :=
    match m with [] => None | (k', v) :: r => if eqb k' k then Some v else mem_find r k end.
  (** mem_[k] = v *)
  Fixpoint mem_set (m : list (K * V)) (k : K) (v : V) : list (K * V) :=
    match m with [] => [(k, v)] | (k', v') :: r => if eqb k' k then (k', v) :: r else (k', v') :: mem_set r k v end.

  (** ** memoize_thread_safe *)
  (** shared state: mem_; and, for the record only, the evaluations of func_ so far *)
  Record mglobal := MG { mg_mem : list (K * V); mg_evals : list (K * outcome V) }.
  (** where a call is: not running; holding read_lock at 47; read_lock released, before 50; holding write_lock at 52;
      holding write_lock with func_ running at 55 *)
  Inductive mpc := MIdle | MReading (k : K) | MWanting (k : K) | MWriting (k : K) | MComputing (k : K).
  (** a thread makes the calls of [mt_todo] one after another; [mt_done] are the outcomes *)
  Record mthread := MT { mt_pc : mpc; mt_todo : list K; mt_done : list (K * outcome V) }.
  Definition mholds (t : mthread) : hold :=
    match mt_pc t with MIdle | MWanting _ => Free | MReading _ => Shared | MWriting _ | MComputing _ => Exclusive end.

  (** what an evaluation of func_ may come to: a value or an exception; it does not call the same object again *)
  Context (may : K -> outcome V -> Prop).

  (** memoize.h 44-63; finding, returning and the lock's destructor are one step.  C++17 evaluates func_ before mem_[tup]
      (55), so a failed evaluation stores nothing; the handler (57-59) throws again. *)
  Inductive mlocal : mglobal -> mthread -> mglobal -> mthread -> Prop :=
  | m_start g k r d : mlocal g (MT MIdle (k :: r) d) g (MT (MReading k) r d)
  | m_hit g k r d v : mem_find (mg_mem g) k = Some v -> mlocal g (MT (MReading k) r d) g (MT MIdle r (d ++ [(k, Ok v)]))
  | m_miss g k r d : mem_find (mg_mem g) k = None -> mlocal g (MT (MReading k) r d) g (MT (MWanting k) r d)
  | m_lock g k r d : mlocal g (MT (MWanting k) r d) g (MT (MWriting k) r d)
  | m_late g k r d v : mem_find (mg_mem g) k = Some v -> mlocal g (MT (MWriting k) r d) g (MT MIdle r (d ++ [(k, Ok v)]))
  | m_eval g k r d : mem_find (mg_mem g) k = None -> mlocal g (MT (MWriting k) r d) g (MT (MComputing k) r d)
  | m_store g k r d v : may k (Ok v) -> mlocal g (MT (MComputing k) r d)
      (MG (mem_set (mg_mem g) k v) (mg_evals g ++ [(k, Ok v)])) (MT MIdle r (d ++ [(k, Ok v)]))
  | m_fail g k r d : may k Throw -> mlocal g (MT (MComputing k) r d)
      (MG (mg_mem g) (mg_evals g ++ [(k, Throw)])) (MT MIdle r (d ++ [(k, Throw)])).

  (** the threads' calls given, from an empty cache *)
  Definition memo_start (calls : list (list K)) : mglobal * list mthread := (MG [] [], map (fun l => MT MIdle l []) calls).
  Definition memo_reach (calls : list (list K)) (g : mglobal) (ts : list mthread) : Prop :=
    csteps mholds mlocal (fun _ _ => False) (memo_start calls) (g, ts).
  (** memoize.h 65 *)
  Definition memo_size (g : mglobal) : nat := length (mg_mem g).

  (** ** memoize: one thread; func_ may call the object again *)
  Context (func : K -> fprog K V).
  (** memory, evaluations that succeeded, outcome *)
  Definition mstate := (list (K * V) * list K)%type.
  Fixpoint run_memo (call : mstate -> K -> mstate * outcome V) (s : mstate) (p : fprog K V) : mstate * outcome V :=
    match p with
    | FRet v => (s, Ok v)
    | FFail => (s, Throw)
    | FAsk k cont => match call s k with (s', Ok v) => run_memo call s' (cont v) | r => r end
    end.
  (** memoize.h 18-26; out of fuel (nesting) is UB *)
  Fixpoint memo_call (fuel : nat) (s : mstate) (k : K) : mstate * outcome V :=
    match fuel with
    | O => (s, UB)
    | S fuel =>
      match mem_find (fst s) k with
      | Some v => (s, Ok v)
      | None =>
        match run_memo (memo_call fuel) s (func k) with
        | (s', Ok v) => ((mem_set (fst s') k v, snd s' ++ [k]), Ok v)
        | r => r
        end
      end
    end.
  (** a sequence of calls *)
  Fixpoint memo_calls (fuel : nat) (s : mstate) (ks : list K) : mstate * list (outcome V) :=
    match ks with
    | [] => (s, [])
    | k :: r => let (s1, o) := memo_call fuel s k in let (s2, os) := memo_calls fuel s1 r in (s2, o :: os)
    end.
End Memo.
