(** * C202 a circular buffer of frames is the recording of its last frames *)
From Coq Require Import List Arith Bool Lia ZArith.
From Verif Require Import Base BaseProofs AssocSpec AssocModel CfbSpec CfbModel CfbProofs.
Import ListNotations.

(** ** after any history of adding frames and assigning values, every kept frame has what was recorded, whichever way it is accessed; a frame starts with the values of the one it replaces *)
Theorem C202_read : forall (T L : Type) (d : T) (ldef : L) nch cp (os : list (call T)), 0 < cp -> allowed cp nch [] os -> let h := recorded [] os in (Z.of_nat (frames h) < 2 ^ 64)%Z ->
  exists b, run (cfb_make d ldef nch cp) os = Ok b /\ frame_size b = frames h /\ channel_size b = nch /\ forall f c, kept cp (frames h) f -> c < nch ->
  read_at b (at_frame b f c) = Ok (held d cp h f c) /\ read_at b (at_reverse b (frames h - 1 - f) c) = Ok (held d cp h f c) /\ (f = frames h - 1 -> read_at b (at_last b c) = Ok (held d cp h f c)).
Proof.
  intros T L d ldef nch cp os C A h M. destruct (run_holds d os [] nch cp _ C (make_holds d ldef nch cp) A M) as (b & E & H). fold h in H. exists b. pose proof (h_size _ _ _ _ _ H) as Z1. pose proof (h_cap _ _ _ _ _ H) as Z2. pose proof (h_nch _ _ _ _ _ H) as Z3.
  split; [exact E|]. split; [exact Z1|]. split; [exact Z3|]. intros f c K N. pose proof K as [K1 K2]. split; [apply (read_frame d h nch cp); assumption|]. split.
  - rewrite reverse_ok by lia. rewrite Z1. replace (frames h - 1 - (frames h - 1 - f)) with f by lia. apply (read_frame d h nch cp); assumption.
  - intros ->. rewrite last_ok, Z1 by lia. apply (read_frame d h nch cp); assumption.
Qed.
Print Assumptions C202_read.

(** ** the accessor with a check gives exactly the kept frames, once the buffer is full *)
Theorem C202_at_partial : forall (T L : Type) (d : T) (ldef : L) nch cp (os : list (call T)), 0 < cp -> allowed cp nch [] os -> let h := recorded [] os in (Z.of_nat (frames h) < 2 ^ 64)%Z -> cp <= frames h ->
  exists b, run (cfb_make d ldef nch cp) os = Ok b /\ forall f c, (kept cp (frames h) f /\ c < nch -> read_at b (at_checked b f c) = Ok (held d cp h f c)) /\ (~ (kept cp (frames h) f /\ c < nch) -> read_at b (at_checked b f c) = Throw).
Proof.
  intros T L d ldef nch cp os C A h M F. destruct (run_holds d os [] nch cp _ C (make_holds d ldef nch cp) A M) as (b & E & H). fold h in H. exists b. split; [exact E|]. intros f c. rewrite (checked_ok d h nch cp b f c C H M F). unfold kept.
  split; intros K.
  - replace ((frames h - cp <=? f) && (f <? frames h) && (c <? nch)) with true by lia. reflexivity.
  - replace ((frames h - cp <=? f) && (f <? frames h) && (c <? nch)) with false by lia. reflexivity.
Qed.
Print Assumptions C202_at_partial.
(** ** before that it rejects every frame, also those that are there *)
Theorem C202_at_refuted : forall (T L : Type) (d : T) (ldef : L) nch cp (os : list (call T)), (Z.of_nat cp < 2 ^ 64)%Z -> allowed cp nch [] os -> let h := recorded [] os in frames h < cp ->
  exists b, run (cfb_make d ldef nch cp) os = Ok b /\ forall f c, read_at b (at_checked b f c) = Throw.
Proof.
  intros T L d ldef nch cp os M A h F. destruct (run_holds d os [] nch cp _ ltac:(lia) (make_holds d ldef nch cp) A) as (b & E & H); [fold h; lia|]. exists b. split; [exact E|]. intros f c. fold h in H. apply (checked_early d h nch cp); assumption.
Qed.
Print Assumptions C202_at_refuted.

(** ** interpolating between a frame and the next one uses these two; after the most recent one it uses the oldest *)
Theorem C202_interpolated : forall (T L P : Type) (d : T) (ldef : L) (mix : P -> T -> T -> T) nch cp (os : list (call T)), 0 < cp -> allowed cp nch [] os -> let h := recorded [] os in (Z.of_nat (frames h) < 2 ^ 64)%Z ->
  exists b, run (cfb_make d ldef nch cp) os = Ok b /\ forall f c p,
  (kept cp (frames h) f -> f + 1 < frames h -> c < nch -> interpolated mix b f c p = Ok (mix p (held d cp h f c) (held d cp h (f + 1) c))) /\
  (frames h <= f \/ nch <= c -> interpolated mix b f c p = Throw).
Proof.
  intros T L P d ldef mix nch cp os C A h M. destruct (run_holds d os [] nch cp _ C (make_holds d ldef nch cp) A M) as (b & E & H). fold h in H. exists b. split; [exact E|]. intros f c p. pose proof (h_size _ _ _ _ _ H) as Z1. pose proof (h_nch _ _ _ _ _ H) as Z3. unfold interpolated. rewrite Z1, Z3. split.
  - intros K N X. pose proof K as [K1 K2]. rewrite (proj2 (Nat.ltb_lt f (frames h)) K1), (proj2 (Nat.ltb_lt c nch) X). cbn [andb]. rewrite (read_frame d h nch cp) by assumption. cbn [obind]. rewrite (read_frame d h nch cp); [reflexivity|assumption|assumption|unfold kept; lia|assumption].
  - intros K. replace ((f <? frames h) && (c <? nch)) with false; [reflexivity|]. symmetry. apply andb_false_iff. destruct K; [left|right]; apply Nat.ltb_ge; assumption.
Qed.
Print Assumptions C202_interpolated.
Theorem C202_interpolated_last_refuted : forall (T L P : Type) (d : T) (ldef : L) (mix : P -> T -> T -> T) nch cp (os : list (call T)), 0 < cp -> allowed cp nch [] os -> let h := recorded [] os in (Z.of_nat (frames h) < 2 ^ 64)%Z -> cp <= frames h ->
  exists b, run (cfb_make d ldef nch cp) os = Ok b /\ forall c p, c < nch -> interpolated mix b (frames h - 1) c p = Ok (mix p (held d cp h (frames h - 1) c) (held d cp h (frames h - cp) c)).
Proof.
  intros T L P d ldef mix nch cp os C A h M F. destruct (run_holds d os [] nch cp _ C (make_holds d ldef nch cp) A M) as (b & E & H). fold h in H. exists b. split; [exact E|]. intros c p X. pose proof (h_size _ _ _ _ _ H) as Z1. pose proof (h_nch _ _ _ _ _ H) as Z3. pose proof (h_cap _ _ _ _ _ H) as Z2. unfold interpolated. rewrite Z1, Z3.
  rewrite (proj2 (Nat.ltb_lt (frames h - 1) (frames h))), (proj2 (Nat.ltb_lt c nch) X) by lia. cbn [andb]. rewrite (read_frame d h nch cp); [cbn [obind]|assumption|assumption|unfold kept; lia|assumption].
  replace (at_frame b (frames h - 1 + 1) c) with (at_frame b (frames h - cp) c). { rewrite (read_frame d h nch cp); [reflexivity|assumption|assumption|unfold kept; lia|assumption]. }
  rewrite !frame_ok, Z2 by lia. f_equal. f_equal. f_equal. replace (frames h - 1 + 1) with (frames h - cp + 1 * cp) by lia. rewrite Nat.mod_add by lia. reflexivity.
Qed.
Print Assumptions C202_interpolated_last_refuted.

(** ** adding a channel makes the capacity the number of frames and forgets all values; so with frames it works, and without frames nothing can be accessed any more *)
Theorem C202_add_channel : forall (T L : Type) (d : T) (leq : L -> L -> bool) (ldef : L) (b : cfb T L) (l : L), (forall x, leq x x = true) ->
  (find_channel leq b l = None -> exists b', add_channel d leq ldef b l = Ok (b', channel_size b) /\ channel_size b' = channel_size b + 1 /\ frame_size b' = frame_size b /\ find_channel leq b' l = Some (channel_size b) /\
    forall f c, f < frame_size b -> c <= channel_size b -> read_at b' (at_frame b' f c) = Ok d) /\
  (forall i, find_channel leq b l = Some i -> add_channel d leq ldef b l = Throw).
Proof.
  intros T L d leq ldef b l R. rewrite add_channel_eq. split; [intros N|intros i N]; rewrite N; [|reflexivity]. eexists. split; [reflexivity|]. split; [apply add_channel_size|]. split; [reflexivity|].
  split. { unfold find_channel, lv_find, lv_map_set. cbn [labels lv_index find fst]. rewrite R. reflexivity. }
  intros f c F C. unfold read_at. rewrite frame_ok by (cbn [frame_capacity]; lia). rewrite add_channel_size. cbn [obind frame_capacity cfb_data]. unfold vec_get. rewrite nth_error_repeat; [reflexivity|]. rewrite Nat.mod_small by exact F. nia.
Qed.
Print Assumptions C202_add_channel.
Theorem C202_add_channel_refuted : forall (T L : Type) (d : T) (leq : L -> L -> bool) (ldef : L) nch cp (l : L), exists b', add_channel d leq ldef (cfb_make d ldef nch cp) l = Ok (b', nch) /\
  forall b'', b'' = b' \/ b'' = fst (add_frame b') -> forall f c, read_at b'' (at_frame b'' f c) = UB /\ read_at b'' (at_last b'' c) = UB /\ read_at b'' (at_reverse b'' f c) = UB.
Proof.
  intros T L d leq ldef nch cp l. assert (CS : channel_size (cfb_make d ldef nch cp) = nch) by apply repeat_length. rewrite add_channel_eq. change (find_channel leq (cfb_make d ldef nch cp) l) with (@None nat). rewrite CS. eexists. split; [reflexivity|]. intros b'' [->| ->] f c; repeat split; reflexivity.
Qed.
Print Assumptions C202_add_channel_refuted.

(** ** resizing keeps the number of frames and forgets all values, and makes room for the new number of frames; fewer channels are an error *)
Theorem C202_resize : forall (T L : Type) (d : T) (ldef : L) (b : cfb T L) nf, 0 < nf ->
  (let b' := resize_frames d b nf in frame_size b' = frame_size b /\ frame_capacity b' = nf /\ channel_size b' = channel_size b /\ length (cfb_data b') = nf * channel_size b /\ forall f c, c < channel_size b -> read_at b' (at_frame b' f c) = Ok d /\ read_at b' (at_reverse b' f c) = Ok d /\ read_at b' (at_last b' c) = Ok d) /\
  (forall nc, channel_size b <= nc -> exists b', resize_all d ldef b nf nc = Ok b' /\ frame_size b' = frame_size b /\ frame_capacity b' = nf /\ channel_size b' = nc /\ length (cfb_data b') = nf * nc /\
    forall f c, c < nc -> read_at b' (at_frame b' f c) = Ok d /\ read_at b' (at_reverse b' f c) = Ok d /\ read_at b' (at_last b' c) = Ok d) /\
  (forall nc, nc < channel_size b -> resize_all d ldef b nf nc = Throw).
Proof.
  intros T L d ldef b nf P.
  assert (G : forall (b' : cfb T L) nc, frame_capacity b' = nf -> channel_size b' = nc -> cfb_data b' = repeat d (nf * nc) -> forall f c, c < nc -> read_at b' (at_frame b' f c) = Ok d /\ read_at b' (at_reverse b' f c) = Ok d /\ read_at b' (at_last b' c) = Ok d).
  { intros b' nc C N D. assert (S : forall z c, c < nc -> read_at b' (do s <- slot b' z; Ok (offset b' s c)) = Ok d).
    { intros z c K. unfold slot. rewrite C. destruct (Nat.eqb_spec nf 0); [lia|]. unfold read_at. cbn [obind]. unfold vec_get, offset. rewrite D, N, nth_error_repeat; [reflexivity|]. pose proof (Z.mod_pos_bound z (Z.of_nat nf)). assert (Z.to_nat (z mod Z.of_nat nf) < nf) by lia. nia. }
    intros f c K. split; [|split]; apply S; exact K. }
  split; [|split].
  - intros b'. split; [reflexivity|]. split; [reflexivity|]. split; [reflexivity|]. split; [apply repeat_length|]. apply G; reflexivity.
  - intros nc K. unfold resize_all, lv_resize. fold (channel_size b). rewrite (proj2 (Nat.leb_le _ _) K). cbn [obind]. eexists. split; [reflexivity|]. split; [reflexivity|]. split; [reflexivity|].
    assert (E : forall l, length l <= nc -> length (vec_resize l nc ldef) = nc) by (intros l H; unfold vec_resize; rewrite app_length, firstn_length, repeat_length; lia). split; [apply E, K|]. split; [apply repeat_length|]. apply G; [reflexivity|apply E, K|reflexivity].
  - intros nc K. unfold resize_all, lv_resize. fold (channel_size b). replace (channel_size b <=? nc) with false by (symmetry; apply Nat.leb_gt; exact K). reflexivity.
Qed.
Print Assumptions C202_resize.

(** two channels, three frames kept, five frames added *)
Definition sample_calls : list (call nat) := [CAdd; CLast 0 10; CLast 1 11; CAdd; CLast 0 20; CAdd; CAdd; CReverse 1 1 31; CAdd; CFrame 3 0 40].
Example C202_case : allowed 3 2 [] sample_calls /\ let h := recorded [] sample_calls in frames h = 5 /\
  map (fun fc => held 0 3 h (fst fc) (snd fc)) [(2, 1); (3, 0); (3, 1); (4, 0)] = [31; 40; 11; 20] /\ exists b, run (cfb_make 0 0 2 3) sample_calls = Ok b /\ cfb_data b = [40; 11; 20; 0; 0; 31].
Proof. split; [cbn; unfold kept; cbn; lia|]. split; [reflexivity|]. split; [reflexivity|]. eexists. split; reflexivity. Qed.
(** two of three frames are there, with their values, and the accessor with a check rejects them *)
Example C202_early_case : let os := [CAdd; CLast 0 10; CAdd; CLast 0 20] in allowed 3 1 [] os /\ exists b, run (cfb_make 0 0 1 3) os = Ok b /\ read_at b (at_frame b 0 0) = Ok 10 /\ read_at b (at_last b 0) = Ok 20 /\ read_at b (at_checked b 0 0) = Throw.
Proof. split; [cbn; unfold kept; cbn; lia|]. eexists. split; [reflexivity|]. repeat split; reflexivity. Qed.
(** resizing the buffer of five frames to two forgets them *)
Example C202_resize_case : exists b, run (cfb_make 0 0 2 3) sample_calls = Ok b /\ channel_size b = 2 /\ let b' := resize_frames 0 b 2 in (read_at b' (at_frame b' 4 0), read_at b' (at_last b' 1), read_at b (at_frame b 3 0)) = (Ok 0, Ok 0, Ok 40) /\ resize_all 0 0 b 3 1 = Throw.
Proof. eexists. split; [reflexivity|]. vm_compute. split; [reflexivity|]. split; reflexivity. Qed.
