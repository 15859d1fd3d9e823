(** Proofs about the frames of a storage and values between frames. *)
From Coq Require Import Ascii String List Arith Bool ZArith Reals SpecFloat Lia Lra.
From Verif Require Import Base BaseProofs Str StrBase StrModel AssocSpec AssocModel AssocProofs GridSpec GridModel GridProofs TblSpec TblModel.
Import ListNotations.
Local Open Scope nat_scope.

Section Frames.
  Context {T : Type} (tdef : T).
  Local Notation sto := (sto T str).
  Local Notation grid := (grid T str).
  Local Notation inv := (st_inv str_eqb).
  (** the labels of a grid are on different columns *)
  Definition apart (g : grid) : Prop := forall l l' c, g_col_of g l = Some c -> g_col_of g l' = Some c -> l = l'.
  Definition put_label (g : grid) (fi : nat) (l : str) (x : T) : grid :=
    match g_col_of g l with
    | Some c => grid_put g fi c x
    | None => grid_put (label_col str_eqb (grid_resize g (g_rows g) (S (g_cols g)) tdef) l (g_cols g)) fi (g_cols g) x
    end.
  Lemma inv_apart s g : inv s g -> apart g.
  Proof. intros [_ [_ [_ [_ [_ H]]]]] l l' c A B. apply H in A, B. destruct A as [_ A], B as [_ B]. congruence. Qed.
  Lemma str_eqb_refl l : str_eqb l l = true.
  Proof. apply str_eqb_eq. reflexivity. Qed.
  Lemma frame_put_ok s g fi l x : inv s g -> fi < g_rows g -> exists s', frame_put tdef s fi l x = Ok s' /\ inv s' (put_label g fi l x).
  Proof.
    intros H F. unfold frame_put, st_find_or_add_channel. pose proof H as [_ [_ [_ [_ [Hf Hl]]]]]. rewrite Hf. unfold put_label. destruct (g_col_of g l) as [c|] eqn:E.
    - cbn [obind]. destruct (st_put_inv str_eqb [] s g fi c x H F) as (s' & E1 & E2 & _); [apply (Hl l c E)|]. eauto.
    - pose proof (st_new_channel str_eqb [] str_eqb_eq s g l tdef H) as N. unfold grid_new_col in N. rewrite E in N. destruct N as (s1 & E1 & I1). rewrite E1. cbn [obind].
      destruct (st_put_inv str_eqb [] s1 _ fi (g_cols g) x I1) as (s' & E2 & E3 & _); [exact F|cbn; lia|]. eauto.
  Qed.
  (** what a label shows in a frame *)
  Definition shown (g : grid) (f : nat) (l : str) : option T := match g_col_of g l with Some c => Some (g_cell g f c) | None => None end.
  Lemma shown_put g fi l x : apart g -> (forall l' c, g_col_of g l' = Some c -> c < g_cols g) -> forall f l', f < g_rows g ->
    shown (put_label g fi l x) f l' =
    if str_eqb l l' then (if f =? fi then Some x else match shown g f l with Some y => Some y | None => Some tdef end) else shown g f l'.
  Proof.
    intros A B f l' F. unfold shown, put_label. destruct (g_col_of g l) as [c|] eqn:E.
    - cbn [grid_put g_col_of g_cell]. destruct (str_eqb l l') eqn:Q.
      + apply str_eqb_eq in Q. subst l'. rewrite E. rewrite Nat.eqb_refl, andb_true_r. destruct (f =? fi); reflexivity.
      + destruct (g_col_of g l') as [c'|] eqn:E'; [|reflexivity]. replace (c' =? c) with false; [rewrite andb_false_r; reflexivity|]. symmetry. apply Nat.eqb_neq. intros ->.
        rewrite (A l l' c E E'), str_eqb_refl in Q. discriminate.
    - cbn [grid_put label_col grid_resize g_col_of g_cell]. unfold set_label. destruct (str_eqb l l') eqn:Q.
      + rewrite Nat.eqb_refl, andb_true_r. destruct (f =? fi); [reflexivity|]. unfold in_grid. replace (g_cols g <? g_cols g) with false by (symmetry; apply Nat.ltb_ge; lia). rewrite andb_false_r. reflexivity.
      + destruct (g_col_of g l') as [c'|] eqn:E'; [|reflexivity]. apply B in E'. replace (c' =? g_cols g) with false by (symmetry; apply Nat.eqb_neq; lia). rewrite andb_false_r.
        unfold in_grid. replace (f <? g_rows g) with true by (symmetry; apply Nat.ltb_lt; exact F). replace (c' <? g_cols g) with true by (symmetry; apply Nat.ltb_lt; exact E'). reflexivity.
  Qed.
  Lemma put_label_rows g fi l x : g_rows (put_label g fi l x) = g_rows g.
  Proof. unfold put_label. destruct (g_col_of g l); reflexivity. Qed.
  Lemma frame_puts_ok : forall fields s g fi, inv s g -> fi < g_rows g -> NoDup (map fst fields) ->
    exists s' g', frame_puts tdef s fi fields = Ok s' /\ inv s' g' /\ g_rows g' = g_rows g /\
      (forall l x, In (l, x) fields -> shown g' fi l = Some x) /\
      (forall f l, f < g_rows g -> ~ In l (map fst fields) -> shown g' f l = shown g f l) /\
      (forall f l, f < g_rows g -> f <> fi -> In l (map fst fields) -> shown g' f l = Some (match shown g f l with Some y => y | None => tdef end)).
  Proof.
    induction fields as [|[l x] fields IH]; intros s g fi I F N.
    - exists s, g. split; [reflexivity|]. split; [exact I|]. split; [reflexivity|]. split; [intros l x []|]. split; [reflexivity|intros f l _ _ []].
    - cbn [map fst] in N. inversion N as [|? ? N1 N2]; subst. destruct (frame_put_ok s g fi l x I F) as (s1 & E1 & I1).
      destruct (IH s1 (put_label g fi l x) fi I1) as (s' & g' & E & I' & R & P1 & P2 & P3); [rewrite put_label_rows; exact F|exact N2|]. rewrite put_label_rows in *.
      assert (S := shown_put g fi l x (inv_apart s g I)). assert (B : forall l' c, g_col_of g l' = Some c -> c < g_cols g) by (intros l' c Q; destruct I as [_ [_ [_ [_ [_ H]]]]]; apply H in Q; tauto). specialize (S B).
      exists s', g'. cbn [frame_puts]. rewrite E1. cbn [obind]. split; [exact E|]. split; [exact I'|]. split; [exact R|]. split; [|split].
      + intros l' x' [Q|Q]; [|apply P1; exact Q]. injection Q as <- <-. rewrite P2 by assumption. rewrite S by exact F. rewrite str_eqb_refl, Nat.eqb_refl. reflexivity.
      + intros f l' Ff Q. cbn in Q. rewrite P2 by tauto. rewrite S by exact Ff. destruct (str_eqb l l') eqn:Ql; [apply str_eqb_eq in Ql; subst; tauto|reflexivity].
      + intros f l' Ff D Q. destruct (str_eqb l l') eqn:Ql.
        * apply str_eqb_eq in Ql. subst l'. rewrite P2 by assumption. rewrite S by exact Ff. rewrite str_eqb_refl. apply Nat.eqb_neq in D. rewrite D. destruct (shown g f l); reflexivity.
        * cbn in Q. destruct Q as [->|Q]; [rewrite str_eqb_refl in Ql; discriminate|]. rewrite P3 by assumption. rewrite S by exact Ff. rewrite Ql. reflexivity.
  Qed.
  (** observed: the sample of a label in a frame, [None] without such a channel *)
  Definition sample (s : sto) (f : nat) (l : str) : option (outcome T) := match st_find_channel str_eqb s l with Some c => Some (st_get s f c) | None => None end.
  Lemma sample_shown s g f l : inv s g -> f < g_rows g -> sample s f l = match shown g f l with Some y => Some (Ok y) | None => None end.
  Proof.
    intros [_ [Hr [Hc [Hg [Hf Hl]]]]] F. unfold sample, shown. rewrite Hf. destruct (g_col_of g l) as [c|] eqn:E; [|reflexivity]. f_equal. apply Hg; [exact F|]. apply (Hl l c E).
  Qed.
  Lemma frame_get_sample s f l x : sample s f l = Some (Ok x) -> frame_get s (const_frame s f) l = Ok x.
  Proof. unfold sample, frame_get, const_frame, st_get. destruct (st_find_channel str_eqb s l) as [c|]; [|discriminate]. intros E. injection E as E. exact E. Qed.
  Theorem frame_write ops g s fields fi : spec_run (sto_spec str_eqb tdef) (grid_empty tdef) ops = Some g -> st_run str_eqb [] tdef (st_make [] 0 0 tdef) ops = Ok s -> fi < st_frames s -> NoDup (map fst fields) ->
    exists s', frame_puts tdef s fi fields = Ok s' /\ st_frames s' = st_frames s /\
      (forall l x, In (l, x) fields -> frame_get s' (const_frame s' fi) l = Ok x) /\
      (forall f l, f < st_frames s -> ~ In l (map fst fields) -> sample s' f l = sample s f l) /\
      (forall f l, f < st_frames s -> f <> fi -> In l (map fst fields) -> sample s' f l = Some (match sample s f l with Some y => y | None => Ok tdef end)).
  Proof.
    intros G E F N. destruct (st_run_spec str_eqb [] tdef str_eqb_eq ops _ _ _ (st_inv_make str_eqb [] tdef) G) as (s0 & E0 & I). assert (Q0 : Ok s = Ok s0) by exact (eq_trans (eq_sym E) E0). injection Q0 as <-.
    pose proof I as [_ [Hr _]]. rewrite Hr in *. destruct (frame_puts_ok fields s g fi I F N) as (s' & g' & E' & I' & R & P1 & P2 & P3). exists s'. split; [exact E'|].
    pose proof I' as [_ [Hr' _]]. split; [congruence|]. split; [|split].
    - intros l x Q. apply frame_get_sample. rewrite (sample_shown s' g' fi l I') by (rewrite R; exact F). rewrite (P1 l x Q). reflexivity.
    - intros f l Ff Q. rewrite (sample_shown s' g' f l I') by (rewrite R; exact Ff). rewrite (sample_shown s g f l I Ff). rewrite (P2 f l Ff Q). reflexivity.
    - intros f l Ff D Q. rewrite (sample_shown s' g' f l I') by (rewrite R; exact Ff). rewrite (sample_shown s g f l I Ff). rewrite (P3 f l Ff D Q). destruct (shown g f l); reflexivity.
  Qed.
  Lemma suffix_apart n a b : a <> b -> n ++ a <> n ++ b :> str.
  Proof. intros H E. apply app_inv_head in E. congruence. Qed.
  Lemma vec_labels n : NoDup [n ++ lit ".x"; n ++ lit ".y"; n ++ lit ".z"].
  Proof. repeat constructor; cbn [In]; intros H; repeat (destruct H as [H|H]; [revert H; apply suffix_apart; discriminate|]); exact H. Qed.
  Lemma quat_labels n : NoDup [n ++ lit ".w"; n ++ lit ".x"; n ++ lit ".y"; n ++ lit ".z"].
  Proof. repeat constructor; cbn [In]; intros H; repeat (destruct H as [H|H]; [revert H; apply suffix_apart; discriminate|]); exact H. Qed.
End Frames.

(** ** between frames *)
Lemma int_part_unique k x : (IZR k <= x < IZR k + 1)%R -> Int_part x = k.
Proof. intros H. unfold Int_part. rewrite <- (tech_up x (k + 1)); [lia| |]; rewrite plus_IZR; lra. Qed.
Lemma interpolated s k x c a b : (INR k <= x <= INR k + 1)%R -> (x < INR (st_frames s) - 1)%R -> k + 1 < st_frames s -> st_get s k c = Ok a -> st_get s (k + 1) c = Ok b ->
  (k + 2 < st_frames s -> exists d, st_get s (k + 2) c = Ok d) ->
  get_interpolated_value s x c = Ok (a + (x - INR k) * (b - a))%R.
Proof.
  intros H L K A B D. unfold get_interpolated_value. destruct (Req_dec x (INR k + 1)) as [->|N].
  - assert (K2 : k + 2 < st_frames s). { apply INR_lt. rewrite plus_INR. cbn [INR]. lra. }
    destruct (D K2) as [d Dd]. assert (P : Int_part (INR k + 1) = Z.of_nat (k + 1)). { apply int_part_unique. rewrite <- INR_IZR_INZ, plus_INR. cbn [INR]. lra. }
    rewrite P. replace (Z.of_nat (k + 1) <? 0)%Z with false by lia. rewrite Nat2Z.id. replace (k + 1 + 1 <? st_frames s) with true by (symmetry; apply Nat.ltb_lt; lia).
    unfold st_get in B, Dd. rewrite B. cbn [obind]. replace ((k + 1) * st_channels s + c + st_channels s) with ((k + 2) * st_channels s + c) by lia. rewrite Dd. cbn [obind].
    rewrite <- INR_IZR_INZ, plus_INR. cbn [INR]. f_equal. ring.
  - assert (P : Int_part x = Z.of_nat k). { apply int_part_unique. rewrite <- INR_IZR_INZ. lra. }
    rewrite P. replace (Z.of_nat k <? 0)%Z with false by lia. rewrite Nat2Z.id. replace (k + 1 <? st_frames s) with true by (symmetry; apply Nat.ltb_lt; lia).
    unfold st_get in A, B. rewrite A. cbn [obind]. replace (k * st_channels s + c + st_channels s) with ((k + 1) * st_channels s + c) by lia. rewrite B. cbn [obind].
    rewrite <- INR_IZR_INZ. f_equal. ring.
Qed.
Lemma interpolated_range s x c : (INR (st_frames s) - 1 <= x)%R -> (0 <= x)%R -> get_interpolated_value s x c = Throw.
Proof.
  intros H P. unfold get_interpolated_value. assert (F : (IZR (Int_part x) <= x < IZR (Int_part x) + 1)%R) by (pose proof (base_Int_part x); lra).
  assert (Z0 : (0 <= Int_part x)%Z). { apply Z.lt_succ_r. apply lt_IZR. unfold Z.succ. rewrite plus_IZR. lra. }
  replace (Int_part x <? 0)%Z with false by lia. replace (_ <? st_frames s) with false; [reflexivity|]. symmetry. apply Nat.ltb_ge.
  assert (Q : (Z.of_nat (st_frames s) - 1 < Int_part x + 1)%Z). { apply lt_IZR. rewrite minus_IZR, plus_IZR, <- INR_IZR_INZ. lra. } lia.
Qed.
