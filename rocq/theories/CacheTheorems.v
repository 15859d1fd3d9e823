(** C32: file_resource_cache under all schedules of threads, clock and file changes. *)
From Coq Require Import List Arith Bool Lia.
From Verif Require Import Base BaseProofs Conc CacheSpec CacheModel CacheProofs.
Import ListNotations.

(** a call never touches an invalid item; what it returns was made from contents the file had at most 3 seconds before
    the call began (during the call, if it looked at the file); it fails only if the file was missing *)
Theorem C32_fresh : forall (Path C T : Type) (eqb : Path -> Path -> bool), (forall a b, eqb a b = true <-> a = b) ->
  forall create : C -> option T, (forall v, create v <> None) ->
  forall now calls g ts, cache_reach eqb create now calls g ts -> dated (history g) ->
  forall t p c0 looked o, In t ts -> In (p, c0, looked, o) (ct_done t) ->
  match o with
  | Ok r => made_from create (history g) p (c0 - if looked then 0 else 3) r
  | Throw => exists c f, In (c, f) (history g) /\ c0 <= c /\ f p = None
  | UB => False
  end.
Proof. exact (fun Path C T => @fresh_assembled Path C T). Qed.
Print Assumptions C32_fresh.

(** no thread reads or changes the items while another may change them *)
Theorem C32_exclusive : forall (Path C T : Type) (eqb : Path -> Path -> bool) (create : C -> option T) now calls g ts,
  cache_reach eqb create now calls g ts -> race_free cholds (clocal eqb create) cg_items (fun l g => with_items g l) ts.
Proof. exact (fun Path C T => @cache_exclusive_assembled Path C T). Qed.
Print Assumptions C32_exclusive.

(** no deadlock: as long as a call is not finished, some thread can move, whatever the files do *)
Theorem C32_progress : forall (Path C T : Type) (eqb : Path -> Path -> bool) (create : C -> option T) (g : cglobal) ts,
  (exists t, In t ts /\ ~ (ct_pc t = CIdle /\ ct_todo t = [])) ->
  exists s', cstep cholds (clocal eqb create) (fun _ _ => False) (g, ts) s'.
Proof. exact (fun Path C T => @cache_progress_assembled Path C T). Qed.
Print Assumptions C32_progress.

(** all calls together take at most seven steps each *)
Theorem C32_bounded : forall (Path C T : Type) (eqb : Path -> Path -> bool) (create : C -> option T) now calls n s',
  tsteps cholds (clocal eqb create) cenv n (cache_start now calls) s' -> n <= 7 * length (concat calls).
Proof. exact (fun Path C T => @cache_bounded_assembled Path C T). Qed.
Print Assumptions C32_bounded.

Definition one_file (m v : nat) : @fsys nat nat := fun p => if p =? 0 then Some (m, v) else None.

Tactic Notation "thread_step" constr(i) uconstr(rule) :=
  eapply csteps_head; [eapply (cstep_thread _ _ _ _ _ i); [reflexivity|eapply rule; try reflexivity; cbn; try (unfold min_check_modified_interval; lia); try congruence|
    first [exact I|left; reflexivity|right; intros [|[|j]] q N Hq; [congruence|injection Hq as <-; (reflexivity || discriminate)|destruct j; discriminate]
      |right; intros [|[|j]] q N Hq; [injection Hq as <-; (reflexivity || discriminate)|congruence|destruct j; discriminate]
      |right; intros [|j] q N Hq; [congruence|destruct j; discriminate]]]|cbn [list_set]].
Ltac world_step c f := eapply csteps_head; [eapply cstep_env; eapply (c_env _ c f); cbn; lia|].

(** two threads ask for the same new file at once; later the file changes: within 3 seconds the old resource is served, after that the new one *)
Example C32_fresh_ex : exists g ts, cache_reach Nat.eqb (fun v => Some (v * 10)) (4, one_file 2 7) [[0; 0; 0]; [0; 5]] g ts /\
  dated (history g) /\
  map ct_done ts = [[(0, 4, true, Ok 70); (0, 6, false, Ok 70); (0, 8, true, Ok 80)]; [(0, 4, true, Ok 70); (5, 8, true, Throw)]].
Proof.
  eexists _, _. split; [|split].
  - unfold cache_reach, cache_start. cbn [map].
    thread_step 0 c_start. thread_step 1 c_start. thread_step 0 c_unknown. thread_step 1 c_unknown.
    thread_step 0 c_lock_new. thread_step 0 c_new. thread_step 0 c_create.
    thread_step 1 c_lock_new. thread_step 1 c_new_found. thread_step 0 c_relock. thread_step 0 c_clone. thread_step 1 c_relock. thread_step 1 c_clone.
    world_step 6 (one_file 6 8).
    thread_step 0 c_start. thread_step 0 c_recent. thread_step 0 c_clone.
    world_step 8 (one_file 6 8).
    thread_step 0 c_start. thread_step 0 c_old. thread_step 0 c_lock_check. thread_step 0 c_check_changed. thread_step 0 c_reload.
    thread_step 0 c_relock. thread_step 0 c_clone.
    thread_step 1 c_start. thread_step 1 c_missing.
    apply csteps_none.
  - unfold dated. cbv [history with_items cg_now cg_past]. repeat constructor; cbn [snd]; intros p m v; unfold one_file; destruct (p =? 0); try discriminate;
      intros [= <- <-]; do 2 eexists; (split; [reflexivity|]); split; lia.
  - reflexivity.
Qed.
Example C32_progress_ex : let t := CT (CWantCheck 0 8 8) [5] [] in
  exists t', In t' [CT CIdle [] [(0, 4, true, Ok 70)]; t] /\ ~ (ct_pc t' = CIdle /\ ct_todo t' = []).
Proof. cbn. eexists. split; [right; left; reflexivity|]. intros [H _]. discriminate H. Qed.

(** after a version of the file from which no resource can be made, the resource of the version before is served for as
    long as the file stays as it is: the call that fails already records the time of the new version *)
Theorem C32_after_failure_refuted : exists (create : nat -> option nat) now calls g ts t p c0 looked r,
  cache_reach Nat.eqb create now calls g ts /\ dated (history g) /\ In t ts /\ In (p, c0, looked, Ok r) (ct_done t) /\
  ~ made_from create (history g) p (c0 - 3) r.
Proof.
  exists (fun v => if v =? 0 then None else Some v), (4, one_file 2 7), [[0; 0; 0]].
  eexists _, _, _, 0, 100, true, 7. split; [|split; [|split; [|split]]].
  - unfold cache_reach, cache_start. cbn [map].
    thread_step 0 c_start. thread_step 0 c_unknown. thread_step 0 c_lock_new. thread_step 0 c_new. thread_step 0 c_create.
    thread_step 0 c_relock. thread_step 0 c_clone.
    world_step 20 (one_file 18 0).
    thread_step 0 c_start. thread_step 0 c_old. thread_step 0 c_lock_check. thread_step 0 c_check_changed.
    eapply csteps_head; [eapply (cstep_thread _ _ _ _ _ 0); [reflexivity|eapply c_reload_throw; right; do 2 eexists; split; reflexivity|exact I]|cbn [list_set]].
    world_step 100 (one_file 18 0).
    thread_step 0 c_start. thread_step 0 c_old. thread_step 0 c_lock_check. thread_step 0 c_check_same. thread_step 0 c_relock. thread_step 0 c_clone.
    apply csteps_none.
  - unfold dated. cbv [history with_items cg_now cg_past]. repeat constructor; cbn [snd]; intros p m v; unfold one_file; destruct (p =? 0); try discriminate;
      intros [= <- <-]; do 2 eexists; (split; [reflexivity|]); split; lia.
  - left. reflexivity.
  - cbn. tauto.
  - unfold made_from. cbn. intros (c & f & m & v & H & Hc & Hf & Hv).
    destruct H as [H|[H|[H|[]]]]; injection H as <- <-; try lia. injection Hf as <- <-. discriminate.
Qed.
Print Assumptions C32_after_failure_refuted.

(** a file changed twice in the same second: the second change is never noticed *)
Theorem C32_same_second_refuted : exists (create : nat -> option nat) now calls g ts t p c0 looked r,
  (forall v, create v <> None) /\ cache_reach Nat.eqb create now calls g ts /\
  ForallOrdPairs (fun later earlier => forall p m v, snd earlier p = Some (m, v) -> exists m' v', snd later p = Some (m', v') /\ m <= m') (history g) /\
  In t ts /\ In (p, c0, looked, Ok r) (ct_done t) /\ ~ made_from create (history g) p (c0 - 3) r.
Proof.
  exists (fun v => Some v), (4, one_file 4 7), [[0; 0]].
  eexists _, _, _, 0, 100, true, 7. split; [discriminate|split; [|split; [|split; [|split]]]].
  - unfold cache_reach, cache_start. cbn [map].
    thread_step 0 c_start. thread_step 0 c_unknown. thread_step 0 c_lock_new. thread_step 0 c_new. thread_step 0 c_create.
    thread_step 0 c_relock. thread_step 0 c_clone.
    world_step 4 (one_file 4 8).
    world_step 100 (one_file 4 8).
    thread_step 0 c_start. thread_step 0 c_old. thread_step 0 c_lock_check. thread_step 0 c_check_same. thread_step 0 c_relock. thread_step 0 c_clone.
    apply csteps_none.
  - cbv [history with_items cg_now cg_past]. repeat constructor; cbn [snd]; intros p m v; unfold one_file; destruct (p =? 0); try discriminate;
      intros [= <- <-]; do 2 eexists; (split; [reflexivity|]); lia.
  - left. reflexivity.
  - cbn. tauto.
  - unfold made_from. cbn. intros (c & f & m & v & H & Hc & Hf & Hv).
    destruct H as [H|[H|[H|[]]]]; injection H as <- <-; try lia; injection Hf as <- <-; discriminate.
Qed.
Print Assumptions C32_same_second_refuted.
