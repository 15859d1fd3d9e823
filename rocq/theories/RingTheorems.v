(** Properties C11, C12: circular_deque and circular_buffer. *)
From Coq Require Import List Arith Bool Lia.
From Verif Require Import Base RingSpec RingModel RingProofs.
Import ListNotations.

(** C11 (partial): for every initial capacity and sequence of pushes, pops and clears (exceptions caught), the deque
    holds the contents of the abstract double-ended queue, seen through size, iteration, indexing, front and back.
    The only way out of defined behaviour is a push_back onto at least [n] (the initial capacity) elements. *)
Theorem C11_circular_deque_partial :
  forall (T : Type) (tdef : T) (n : nat) (ops : list (deque_op T)),
  match cd_run (cd_make tdef n) ops with
  | Ok d => let l := deque_after [] ops in
      cd_size d = length l /\
      cd_iterate d = Ok l /\
      (forall i x, nth_error l i = Some x -> cd_get d i = Ok x) /\
      cd_front_elem d = match l with [] => Throw | x :: _ => Ok x end /\
      cd_back d = match rev l with [] => Throw | x :: _ => Ok x end
  | Throw => False
  | UB => exists ops1 x ops2, ops = ops1 ++ DPushBack x :: ops2 /\ n <= length (deque_after [] ops1)
  end.
Proof. exact @deque_history. Qed.
Print Assumptions C11_circular_deque_partial.

Example C11_example :
  let ops := [DPushBack 1; DPushBack 2; DPopFront; DPushBack 3; DPushFront 4; DPopBack; DPopFront; DPopFront; DPopFront; DPushFront 5; DPushBack 6; DPushBack 7; DPushFront 8] in
  omap (fun d => (cd_iterate d, cd_front d)) (cd_run (cd_make 0 3) ops) = Ok (Ok [8; 5; 6; 7], 1).
Proof. reflexivity. Qed.

(** Missing: push_back onto a full deque whose first element is not at the start of the buffer. *)
Theorem C11_push_back_full_refuted :
  exists (ops : list (deque_op nat)) (n : nat), cd_run (cd_make 0 n) ops = UB.
Proof. exists [DPushBack 1; DPushBack 2; DPopFront; DPushBack 3; DPushBack 4], 2. reflexivity. Qed.
Print Assumptions C11_push_back_full_refuted.

(** Missing: back() of a const deque is not the last element. *)
Theorem C11_const_back_refuted :
  exists (ops : list (deque_op nat)) (n : nat) d, cd_run (cd_make 0 n) ops = Ok d /\
  cd_back d = Ok 2 /\ cd_back_const d = Ok 1.
Proof. exists [DPushBack 1; DPushBack 2], 2. eexists. repeat split. Qed.
Print Assumptions C11_const_back_refuted.

(** reserve keeps contents that do not wrap around the end of the buffer, *)
Theorem C11_reserve_partial :
  forall (T : Type) (tdef : T) (n : nat) (ops : list (deque_op T)) (d : cdeque T) (m : nat),
  cd_run (cd_make tdef n) ops = Ok d ->
  cd_front d + cd_size d <= cd_capacity d -> cd_front d + cd_size d <= m -> cd_front d < m ->
  cd_iterate (cd_reserve tdef d m) = Ok (deque_after [] ops) /\ cd_capacity (cd_reserve tdef d m) = m.
Proof. exact @deque_reserve_history. Qed.
Print Assumptions C11_reserve_partial.

Example C11_reserve_example :
  exists d, cd_run (cd_make 0 3) [DPushBack 1; DPushBack 2; DPopFront; DPushBack 3] = Ok d /\
  cd_front d = 1 /\ cd_size d = 2 /\ cd_capacity d = 3 /\ cd_iterate (cd_reserve 0 d 5) = Ok [2; 3].
Proof. eexists. repeat split. Qed.

(** and loses contents that do. *)
Theorem C11_reserve_refuted :
  exists (ops : list (deque_op nat)) n d m, cd_run (cd_make 0 n) ops = Ok d /\ cd_capacity d < m /\
  cd_iterate d = Ok [2; 3] /\ cd_iterate (cd_reserve 0 d m) = Ok [2; 0].
Proof. exists [DPushBack 1; DPushBack 2; DPopFront; DPushBack 3], 2. eexists. exists 4. repeat split. cbv. lia. Qed.
Print Assumptions C11_reserve_refuted.

(** C12: after any sequence of set and advance calls, back() shows the newest frame, front() the oldest one
    still kept (the n-1st before the newest, or the very first), empty() says whether they coincide, reset() restores the initial state. *)
Theorem C12_circular_buffer :
  forall (T : Type) (tzero : T) (n ch : nat), 0 < n -> 0 < ch ->
  forall ops : list (cbuf_op T),
  Forall (fun o => match o with CSet c _ => c < ch | CAdvance => True end) ops ->
  let h := frames_after tzero n ch ops in
  let k := length h - 1 in
  exists b, cb_run (cb_make tzero n ch) ops = Ok b /\
  (forall c, c < ch -> cb_back b c = Ok (nth c (nth 0 h []) tzero)) /\
  (forall c, c < ch -> cb_front b c = Ok (nth c (nth (Nat.min k (n - 1)) h []) tzero)) /\
  (cb_empty b = true <-> k = 0 \/ n = 1) /\
  cb_reset tzero b = cb_make tzero n ch.
Proof. exact @buffer_history. Qed.
Print Assumptions C12_circular_buffer.

Example C12_example :
  let ops := [CSet 0 1; CSet 1 2; CAdvance; CSet 0 3; CSet 1 4; CAdvance; CSet 0 5; CSet 1 6; CAdvance; CSet 0 7; CSet 1 8] in
  frames_after 0 3 2 ops = [[7; 8]; [5; 6]; [3; 4]; [1; 2]] /\
  (do b <- cb_run (cb_make 0 3 2) ops; cb_front b 0) = Ok 3 /\
  (do b <- cb_run (cb_make 0 3 2) ops; cb_front b 1) = Ok 4 /\
  (do b <- cb_run (cb_make 0 3 2) ops; cb_back b 1) = Ok 8.
Proof. vm_compute. repeat split. Qed.

(** A buffer without frames or channels cannot be advanced. *)
Theorem C12_empty_buffer_refuted : exists n ch, cb_advance (cb_make 0 n ch) = UB.
Proof. exists 0, 3. reflexivity. Qed.
Print Assumptions C12_empty_buffer_refuted.
