From Coq Require Import List Arith Bool NArith Lia.
From Coq Require Import ZifyBool ZifyNat ZifyN.
From Verif Require Import Base FlagSpec FlagModel.
Import ListNotations.

(** [d] holds exactly the flags [m] (below 64) *)
Definition rep (d : N) (m : nat -> bool) : Prop :=
  (d < 2 ^ 64)%N /\ forall f, f < 64 -> N.testbit d (N.of_nat f) = m f.

Lemma high_bits d : (d < 2 ^ 64)%N <-> forall n, (64 <= n)%N -> N.testbit d n = false.
Proof.
  split.
  - intros H n Hn. destruct (N.eq_dec d 0) as [->|Hd]; [apply N.bits_0|].
    apply N.bits_above_log2. apply N.log2_lt_pow2; [lia|]. eapply N.lt_le_trans; [exact H|]. apply N.pow_le_mono_r; lia.
  - intros H. destruct (N.lt_ge_cases d (2 ^ 64)) as [|Hge]; [assumption|exfalso].
    assert (Hd : d <> 0%N) by (intros ->; vm_compute in Hge; apply Hge; reflexivity).
    assert (Hl : (64 <= N.log2 d)%N) by (apply N.log2_le_pow2; [lia|exact Hge]).
    specialize (H _ Hl). rewrite N.bit_log2 in H by exact Hd. discriminate.
Qed.

Lemma bit_shift1 i n : N.testbit (N.shiftl 1 i) n = (n =? i)%N.
Proof. rewrite N.shiftl_1_l, N.pow2_bits_eqb. apply N.eqb_sym. Qed.

Lemma bit_shift0 i n : N.testbit (N.shiftl 0 i) n = false.
Proof. rewrite N.shiftl_0_l. apply N.bits_0. Qed.

Lemma of_nat_eqb a b : (N.of_nat a =? N.of_nat b)%N = (a =? b).
Proof. lia. Qed.

Lemma get_rep d m i : rep d m -> i < 64 -> fs_get d i = Ok (m i).
Proof.
  intros [_ H] Hi. unfold fs_get, storage_bit, width. replace (i <? 64) with true by lia. cbn [obind]. f_equal.
  rewrite <- (H i Hi). destruct (N.testbit d (N.of_nat i)) eqn:E.
  - destruct (N.eqb_spec (N.land d (N.shiftl 1 (N.of_nat i))) 0) as [E2|]; [|reflexivity].
    pose proof (f_equal (fun x => N.testbit x (N.of_nat i)) E2) as E3. cbn beta in E3.
    rewrite N.land_spec, E, bit_shift1, N.eqb_refl, N.bits_0 in E3. discriminate.
  - replace (N.land d (N.shiftl 1 (N.of_nat i))) with 0%N; [reflexivity|].
    symmetry. apply N.bits_inj_iff. intros n. rewrite N.land_spec, bit_shift1, N.bits_0.
    destruct (N.eqb_spec n (N.of_nat i)) as [->|]; [rewrite E; reflexivity|apply andb_false_r].
Qed.

Lemma set_rep d m i : rep d m -> i < 64 -> exists d', fs_set d i = Ok d' /\ rep d' (fun f => if f =? i then true else m f).
Proof.
  intros [Hd H] Hi. unfold fs_set, storage_bit, width. replace (i <? 64) with true by lia. cbn [obind].
  eexists. split; [reflexivity|]. split.
  - apply high_bits. intros n Hn. rewrite N.lor_spec, bit_shift1. rewrite (proj1 (high_bits d) Hd n Hn).
    cbn [orb]. lia.
  - intros f Hf. rewrite N.lor_spec, bit_shift1, of_nat_eqb, H by exact Hf. destruct (f =? i); [apply orb_true_r|apply orb_false_r].
Qed.

Lemma clear_rep d m i : rep d m -> i < 64 -> exists d', fs_clear d i = Ok d' /\ rep d' (fun f => if f =? i then false else m f).
Proof.
  intros [Hd H] Hi. unfold fs_clear, storage_bit, width. replace (i <? 64) with true by lia. cbn [obind].
  eexists. split; [reflexivity|]. split.
  - apply high_bits. intros n Hn. rewrite N.land_spec. rewrite (proj1 (high_bits d) Hd n Hn). reflexivity.
  - intros f Hf. rewrite N.land_spec, N.lnot_spec_low by lia. rewrite bit_shift1, of_nat_eqb, H by exact Hf.
    destruct (f =? i); [apply andb_false_r|apply andb_true_r].
Qed.

Lemma set_to_rep d m i v : rep d m -> i < 64 -> exists d', fs_set_to d i v = Ok d' /\ rep d' (fun f => if f =? i then v else m f).
Proof.
  intros [Hd H] Hi. unfold fs_set_to, storage_bit, storage_bit_val, width. replace (i <? 64) with true by lia. cbn [obind].
  eexists. split; [reflexivity|]. split.
  - apply high_bits. intros n Hn. rewrite N.lor_spec, N.land_spec. rewrite (proj1 (high_bits d) Hd n Hn). cbn [andb orb].
    destruct v; [rewrite bit_shift1; lia|apply bit_shift0].
  - intros f Hf. rewrite N.lor_spec, N.land_spec, N.lnot_spec_low by lia. rewrite bit_shift1, of_nat_eqb, H by exact Hf.
    destruct v; rewrite ?bit_shift1, ?bit_shift0, ?of_nat_eqb; destruct (f =? i), (m f); reflexivity.
Qed.

Lemma rep_ext d m m' : rep d m -> (forall f, f < 64 -> m f = m' f) -> rep d m'.
Proof. intros [Hd H] E. split; [exact Hd|]. intros f Hf. rewrite H, E; auto. Qed.

Lemma set_list_rep l : forall d m, rep d m -> Forall (fun i => i < 64) l ->
  exists d', fs_set_list d l = Ok d' /\ rep d' (fun f => if existsb (Nat.eqb f) l then true else m f).
Proof.
  induction l as [|i l IH]; intros d m H Hl; cbn [fs_set_list].
  - exists d. split; [reflexivity|]. exact H.
  - inversion Hl; subst. destruct (set_rep d m i H) as (d1 & -> & H1); [assumption|]. cbn [obind].
    destruct (IH _ _ H1) as (d2 & E & Hd2); [assumption|]. exists d2. split; [exact E|].
    eapply rep_ext; [exact Hd2|]. intros f Hf. cbn [existsb]. destruct (f =? i), (existsb _ l); reflexivity.
Qed.

Lemma set_list_to_rep l v : forall d m, rep d m -> Forall (fun i => i < 64) l ->
  exists d', fs_set_list_to d l v = Ok d' /\ rep d' (fun f => if existsb (Nat.eqb f) l then v else m f).
Proof.
  induction l as [|i l IH]; intros d m H Hl; cbn [fs_set_list_to].
  - exists d. split; [reflexivity|]. exact H.
  - inversion Hl; subst. destruct (set_to_rep d m i v H) as (d1 & -> & H1); [assumption|]. cbn [obind].
    destruct (IH _ _ H1) as (d2 & E & Hd2); [assumption|]. exists d2. split; [exact E|].
    eapply rep_ext; [exact Hd2|]. intros f Hf. cbn [existsb]. destruct (f =? i), (existsb _ l); reflexivity.
Qed.

Lemma call_rep d m o : rep d m -> Forall (fun i => i < 64) (op_flags o) ->
  exists d', fs_call d o = Ok d' /\ rep d' (flag_after o m).
Proof.
  intros H Hf. destruct o as [i|i v|i|i|l|l v|]; cbn [fs_call op_flags] in *.
  - apply set_rep; [exact H|]. inversion Hf; auto.
  - apply set_to_rep; [exact H|]. inversion Hf; auto.
  - apply clear_rep; [exact H|]. inversion Hf; auto.
  - inversion Hf; subst. unfold fs_toggle. rewrite (get_rep d m i H) by assumption. cbn [obind].
    destruct (set_to_rep d m i (negb (m i)) H) as (d' & E & H'); [assumption|]. exists d'. split; [exact E|].
    eapply rep_ext; [exact H'|]. intros f _. cbn. destruct (Nat.eqb_spec f i); [subst; reflexivity|reflexivity].
  - apply set_list_rep; assumption.
  - apply set_list_to_rep; assumption.
  - exists 0%N. split; [reflexivity|]. split; [reflexivity|]. intros f _. apply N.bits_0.
Qed.

Lemma run_rep ops : forall d m, rep d m -> Forall (fun o => Forall (fun i => i < 64) (op_flags o)) ops ->
  exists d', fs_run d ops = Ok d' /\ rep d' (flags_after ops m).
Proof.
  induction ops as [|o t IH]; intros d m H Hf; cbn [fs_run flags_after].
  - exists d. auto.
  - inversion Hf; subst. destruct (call_rep d m o H) as (d1 & -> & H1); [assumption|]. cbn [obind].
    apply IH; assumption.
Qed.

Lemma any_of_rep l : forall d m, rep d m -> Forall (fun i => i < 64) l -> fs_any_of d l = Ok (existsb m l).
Proof.
  induction l as [|i l IH]; intros d m H Hl; cbn [fs_any_of existsb]; [reflexivity|].
  inversion Hl; subst. rewrite (get_rep d m) by assumption. cbn [obind]. destruct (m i); [reflexivity|].
  apply IH; assumption.
Qed.

Lemma count_rep l : forall d m c, rep d m -> Forall (fun i => i < 64) l ->
  fs_count_loop d l c = Ok (c + length (filter m l)).
Proof.
  induction l as [|i l IH]; intros d m c H Hl; cbn [fs_count_loop filter]; [f_equal; cbn; lia|].
  inversion Hl; subst. rewrite (get_rep d m) by assumption. cbn [obind]. rewrite (IH d m) by assumption. f_equal.
  destruct (m i); cbn [length]; lia.
Qed.

Lemma any_rep d m : rep d m -> (fs_any d = true <-> exists f, f < 64 /\ m f = true).
Proof.
  intros [Hd H]. unfold fs_any. rewrite negb_true_iff, N.eqb_neq. split.
  - intros Hn. pose proof (N.bit_log2 d Hn) as Hb.
    destruct (N.lt_ge_cases (N.log2 d) 64) as [Hl|Hl].
    + exists (N.to_nat (N.log2 d)). split; [lia|]. rewrite <- H by lia. rewrite N2Nat.id. exact Hb.
    + rewrite (proj1 (high_bits d) Hd _ Hl) in Hb. discriminate.
  - intros (f & Hf & Hm) ->. rewrite <- H, N.bits_0 in Hm by exact Hf. discriminate.
Qed.

Lemma rep_unique d d' m : rep d m -> rep d' m -> d = d'.
Proof.
  intros [Hd H] [Hd' H']. apply N.bits_inj_iff. intros n. destruct (N.lt_ge_cases n 64) as [Hn|Hn].
  - replace n with (N.of_nat (N.to_nat n)) by apply N2Nat.id. rewrite H, H' by lia. reflexivity.
  - rewrite (proj1 (high_bits d) Hd n Hn), (proj1 (high_bits d') Hd' n Hn). reflexivity.
Qed.

Lemma rep_data d : (d < 2 ^ 64)%N -> rep d (fun f => N.testbit d (N.of_nat f)).
Proof. intros H. split; [exact H|reflexivity]. Qed.

Lemma of_list_run l : fs_of_list l = fs_run fs_empty [FSetList l].
Proof. unfold fs_of_list. cbn. unfold fs_empty. destruct (fs_set_list 0 l); reflexivity. Qed.

Lemma of_flag_run i : fs_of_flag i = fs_run fs_empty [FSet i].
Proof. unfold fs_of_flag. cbn. unfold fs_set. destruct (storage_bit i); reflexivity. Qed.

Lemma flag_assembled (d : N) (ops : list flag_op) :
  (d < 2 ^ 64)%N -> Forall (fun o => Forall (fun i => i < 64) (op_flags o)) ops ->
  exists d', fs_run d ops = Ok d' /\ (d' < 2 ^ 64)%N /\
    let m := flags_after ops (fun f => N.testbit d (N.of_nat f)) in
    (forall f, f < 64 -> fs_get d' f = Ok (m f)) /\
    (forall f, f < 64 -> N.testbit d' (N.of_nat f) = m f) /\
    (fs_any d' = true <-> exists f, f < 64 /\ m f = true) /\
    (forall l, Forall (fun i => i < 64) l -> fs_any_of d' l = Ok (existsb m l) /\ fs_count d' l = Ok (length (filter m l))) /\
    (forall d2, (d2 < 2 ^ 64)%N -> (forall f, f < 64 -> fs_get d2 f = fs_get d' f) -> d2 = d').
Proof.
  intros Hd Ho. destruct (run_rep ops d _ (rep_data d Hd) Ho) as (d' & E & Hr). exists d'. split; [exact E|].
  split; [apply Hr|]. cbv zeta. split; [intros f Hf; apply get_rep; assumption|].
  split; [apply Hr|]. split; [apply any_rep, Hr|]. split.
  - intros l Hl. split; [apply any_of_rep; assumption|]. unfold fs_count. rewrite (count_rep l d' _ 0 Hr Hl). reflexivity.
  - intros d2 H2 Hg. apply (rep_unique d2 d' (fun f => N.testbit d' (N.of_nat f))); [|apply rep_data, Hr].
    split; [exact H2|]. intros f Hf. specialize (Hg f Hf).
    rewrite (get_rep d2 _ f (rep_data d2 H2) Hf), (get_rep d' _ f (rep_data d' (proj1 Hr)) Hf) in Hg.
    injection Hg as Hg. exact Hg.
Qed.
