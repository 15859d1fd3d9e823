(** Lemmas about circular frame buffers. *)
From Coq Require Import List Arith Bool Lia ZArith.
From Coq Require Import ZifyBool ZifyNat.
From Verif Require Import Base BaseProofs AssocSpec AssocModel CfbSpec CfbModel.
Import ListNotations.

Lemma mod_apart cap f g : 0 < cap -> f <> g -> f < g + cap -> g < f + cap -> f mod cap <> g mod cap.
Proof.
  intros C N A B E. pose proof (Nat.div_mod f cap ltac:(lia)) as F. pose proof (Nat.div_mod g cap ltac:(lia)) as G. rewrite E in F.
  assert (D : f / cap <> g / cap) by (intros H; rewrite H in F; lia). destruct (Nat.lt_ge_cases (f / cap) (g / cap)); nia.
Qed.
Lemma off_apart n i c j c' : c < n -> c' < n -> i * n + c = j * n + c' -> i = j /\ c = c'.
Proof. intros A B E. assert (i = j) by (destruct (Nat.lt_trichotomy i j) as [?|[?|?]]; nia). subst. lia. Qed.

Section Proofs.
  Context {T L : Type} (d : T) (ldef : L).
  Notation cfb := (cfb T L).
  Notation cap := frame_capacity.

  Lemma slot_nat (b : cfb) x : cap b <> 0 -> slot b (Z.of_nat x) = Ok (x mod cap b).
  Proof. intros C. unfold slot. rewrite (proj2 (Nat.eqb_neq _ _) C). f_equal. rewrite <- Nat2Z.inj_mod. apply Nat2Z.id. Qed.
  Lemma usub_nat n k : k <= n -> (Z.of_nat n < 2 ^ 64)%Z -> usub n k = Z.of_nat (n - k).
  Proof. intros K N. unfold usub. rewrite Z.mod_small by lia. lia. Qed.
  Lemma frame_ok (b : cfb) f c : cap b <> 0 -> at_frame b f c = Ok (f mod cap b * channel_size b + c).
  Proof. intros C. unfold at_frame. rewrite slot_nat by exact C. reflexivity. Qed.
  Lemma last_ok (b : cfb) c : cap b <> 0 -> 0 < frame_size b -> (Z.of_nat (frame_size b) < 2 ^ 64)%Z -> at_last b c = at_frame b (frame_size b - 1) c.
  Proof. intros C N M. unfold at_last, at_frame. rewrite usub_nat by lia. reflexivity. Qed.
  Lemma reverse_ok (b : cfb) k c : cap b <> 0 -> k < frame_size b -> (Z.of_nat (frame_size b) < 2 ^ 64)%Z -> at_reverse b k c = at_frame b (frame_size b - 1 - k) c.
  Proof. intros C N M. unfold at_reverse, at_frame. rewrite Z.mod_small by lia. replace (Z.of_nat (frame_size b) - Z.of_nat k - 1)%Z with (Z.of_nat (frame_size b - 1 - k)) by lia. reflexivity. Qed.

  (** the buffer holds the recording *)
  Record holds (h : list (event T)) (nch cp : nat) (b : cfb) : Prop := {
    h_size : frame_size b = frames h;
    h_cap : cap b = cp;
    h_nch : channel_size b = nch;
    h_len : length (cfb_data b) = cp * nch;
    h_kept : forall f c, kept cp (frames h) f -> c < nch -> nth_error (cfb_data b) (f mod cp * nch + c) = Some (held d cp h f c);
    h_free : forall i c, frames h <= i < cp -> c < nch -> nth_error (cfb_data b) (i * nch + c) = Some d }.

  Lemma offset_in cp nch f c : 0 < cp -> c < nch -> f mod cp * nch + c < cp * nch.
  Proof. intros C N. pose proof (Nat.mod_upper_bound f cp ltac:(lia)). nia. Qed.
  Lemma make_holds nch cp : holds [] nch cp (cfb_make d ldef nch cp).
  Proof.
    split; try reflexivity.
    - unfold channel_size. cbn. apply repeat_length.
    - cbn. apply repeat_length.
    - intros f c [A _]. cbn in A. lia.
    - intros i c I C. cbn [cfb_make cfb_data]. apply nth_error_repeat. cbn in I. nia.
  Qed.
  Lemma add_holds h nch cp b : 0 < cp -> holds h nch cp b -> holds (Added :: h) nch cp (fst (add_frame b)).
  Proof.
    intros C [A1 A2 A3 A4 A5 A6]. split; cbn [add_frame fst frame_size frame_capacity cfb_data frames]; try assumption.
    - rewrite A1. reflexivity.
    - intros f c [K1 K2] N. cbn [held]. destruct (Nat.eqb_spec f (frames h)) as [->|E].
      + destruct (Nat.ltb_spec (frames h) cp) as [S|S].
        * rewrite Nat.mod_small by exact S. apply A6; lia.
        * replace (frames h mod cp) with ((frames h - cp) mod cp). { apply A5; [unfold kept; lia|exact N]. }
          replace (frames h) with (frames h - cp + 1 * cp) at 2 by lia. rewrite Nat.mod_add by lia. reflexivity.
      + apply A5; [unfold kept; lia|exact N].
    - intros i c I N. apply A6; lia.
  Qed.
  Lemma put_holds h nch cp b f c v : 0 < cp -> holds h nch cp b -> kept cp (frames h) f -> c < nch ->
    exists b', write_at b (at_frame b f c) v = Ok b' /\ holds (Put f c v :: h) nch cp b'.
  Proof.
    intros C [A1 A2 A3 A4 A5 A6] K N. pose proof (offset_in cp nch f c C N) as O. unfold write_at. rewrite frame_ok by lia. rewrite A2, A3. cbn [obind]. unfold vec_set. rewrite A4, (proj2 (Nat.ltb_lt _ _) O). cbn [obind]. eexists. split; [reflexivity|].
    split; cbn [frame_size frame_capacity cfb_data frames]; try assumption; try reflexivity.
    - rewrite list_set_length. exact A4.
    - intros g c' K' N'. cbn [held]. destruct (Nat.eqb_spec f g) as [<-|E]; cbn [andb].
      + destruct (Nat.eqb_spec c c') as [<-|E']; [apply nth_error_list_set_eq; lia|]. rewrite nth_error_list_set_neq by lia. apply A5; assumption.
      + rewrite nth_error_list_set_neq; [apply A5; assumption|]. intros X. apply off_apart in X; [|assumption|assumption]. destruct K as [K1 K2], K' as [K1' K2']. apply (mod_apart cp f g); try lia.
    - intros i c' I N'. rewrite nth_error_list_set_neq; [apply A6; assumption|]. intros X. apply off_apart in X; [|assumption|assumption]. destruct K as [K1 K2]. rewrite Nat.mod_small in X by lia. lia.
  Qed.
  Lemma step_holds h nch cp b o : 0 < cp -> holds h nch cp b -> (Z.of_nat (frames h) < 2 ^ 64)%Z ->
    allowed1 cp nch h o ->
    exists b', step b o = Ok b' /\ holds (event_of h o :: h) nch cp b'.
  Proof.
    intros C H M G. destruct o as [|f c v|c v|k c v]; cbn [step event_of allowed1] in *.
    - eexists. split; [reflexivity|]. apply add_holds; assumption.
    - apply put_holds; tauto.
    - pose proof (h_size _ _ _ _ H) as Z1. pose proof (h_cap _ _ _ _ H) as Z2. rewrite last_ok, Z1 by lia. apply put_holds; try tauto. unfold kept. lia.
    - pose proof (h_size _ _ _ _ H) as Z1. pose proof (h_cap _ _ _ _ H) as Z2. rewrite reverse_ok, Z1 by lia. apply put_holds; try tauto. unfold kept. lia.
  Qed.
  Lemma read_frame h nch cp b f c : 0 < cp -> holds h nch cp b -> kept cp (frames h) f -> c < nch -> read_at b (at_frame b f c) = Ok (held d cp h f c).
  Proof. intros C [A1 A2 A3 A4 A5 A6] K N. unfold read_at. rewrite frame_ok by lia. cbn [obind]. rewrite A2, A3. unfold vec_get. rewrite A5 by assumption. reflexivity. Qed.

  Lemma frames_grow h os : frames h <= frames (recorded (T:=T) h os).
  Proof. revert h. induction os as [|o r IH]; intros h; cbn [recorded]; [lia|]. eapply Nat.le_trans; [|apply IH]. destruct o; cbn; lia. Qed.
  Lemma run_holds os : forall h nch cp b, 0 < cp -> holds h nch cp b -> allowed cp nch h os -> (Z.of_nat (frames (recorded h os)) < 2 ^ 64)%Z -> exists b', run b os = Ok b' /\ holds (recorded h os) nch cp b'.
  Proof.
    induction os as [|o r IH]; intros h nch cp b C H A M; cbn [run recorded allowed] in *.
    - exists b. split; [reflexivity|exact H].
    - destruct A as [A1 A2]. destruct (step_holds h nch cp b o C H) as (b' & E & H'); [|exact A1|]. { pose proof (frames_grow h (o :: r)) as G. cbn [recorded] in G. lia. }
      rewrite E. cbn [obind]. apply IH; assumption.
  Qed.
  Lemma checked_ok h nch cp b f c : 0 < cp -> holds h nch cp b -> (Z.of_nat (frames h) < 2 ^ 64)%Z -> cp <= frames h ->
    read_at b (at_checked b f c) = if (frames h - cp <=? f) && (f <? frames h) && (c <? nch) then Ok (held d cp h f c) else Throw.
  Proof.
    intros C H M F. pose proof (h_size _ _ _ _ H) as Z1. pose proof (h_cap _ _ _ _ H) as Z2. pose proof (h_nch _ _ _ _ H) as Z3. unfold at_checked. rewrite Z1, Z2, Z3, usub_nat by lia.
    replace (Z.of_nat (frames h - cp) <=? Z.of_nat f)%Z with (frames h - cp <=? f) by lia. destruct ((frames h - cp <=? f) && (f <? frames h) && (c <? nch)) eqn:E; [|reflexivity]. apply (read_frame h nch cp); try assumption; [|lia]. unfold kept. lia.
  Qed.
  Lemma checked_early h nch cp b f c : holds h nch cp b -> (Z.of_nat cp < 2 ^ 64)%Z -> frames h < cp -> read_at b (at_checked b f c) = Throw.
  Proof.
    intros H M F. pose proof (h_size _ _ _ _ H) as Z1. pose proof (h_cap _ _ _ _ H) as Z2. unfold at_checked. rewrite Z1, Z2. unfold usub. rewrite <- (Z.mod_unique_pos (Z.of_nat (frames h) - Z.of_nat cp) (2 ^ 64) (-1) (2 ^ 64 + Z.of_nat (frames h) - Z.of_nat cp)) by lia.
    replace ((2 ^ 64 + Z.of_nat (frames h) - Z.of_nat cp <=? Z.of_nat f)%Z && (f <? frames h)) with false by lia. reflexivity.
  Qed.
End Proofs.

Lemma add_channel_eq {T L : Type} (d : T) (leq : L -> L -> bool) (ldef : L) (b : cfb T L) l : add_channel d leq ldef b l =
  match find_channel leq b l with
  | Some _ => Throw
  | None => Ok ({| frame_size := frame_size b; frame_capacity := frame_size b; cfb_data := repeat d (frame_size b * (channel_size b + 1));
      labels := {| lv_labels := list_set (vec_resize (lv_labels (labels b)) (channel_size b + 1) ldef) (channel_size b) l; lv_index := lv_map_set leq (lv_index (labels b)) l (channel_size b) |} |}, channel_size b)
  end.
Proof.
  assert (LR : length (vec_resize (lv_labels (labels b)) (channel_size b + 1) ldef) = channel_size b + 1). { unfold vec_resize, channel_size. rewrite app_length, firstn_length, repeat_length. lia. }
  unfold add_channel, resize_all, lv_resize, find_channel. change (length (lv_labels (labels b))) with (channel_size b). set (n := channel_size b) in *. rewrite (proj2 (Nat.leb_le n (n + 1))) by lia. cbn [obind labels]. unfold channel_size. cbn [labels lv_labels]. rewrite LR.
  unfold lv_set. cbn [lv_labels]. rewrite LR. replace (n + 1 - 1) with n by lia. rewrite (proj2 (Nat.ltb_lt n (n + 1))) by lia. cbn [andb]. unfold lv_find. cbn [lv_index]. destruct (find _ _); reflexivity.
Qed.
Lemma add_channel_size {T L : Type} (ldef : L) (b : cfb T L) x y z l m : channel_size {| frame_size := x; frame_capacity := y; cfb_data := z : list T; labels := {| lv_labels := list_set (vec_resize (lv_labels (labels b)) (channel_size b + 1) ldef) (channel_size b) l; lv_index := m |} |} = channel_size b + 1.
Proof. unfold channel_size at 1. cbn [labels lv_labels]. rewrite list_set_length. unfold vec_resize, channel_size. rewrite app_length, firstn_length, repeat_length. lia. Qed.
