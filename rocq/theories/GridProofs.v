(** Proofs about storage, find_frame_index and table. *)
From Coq Require Import List Arith Bool Lia ZArith.
From Coq Require Import ZifyBool ZifyNat.
From Verif Require Import Base BaseProofs AssocSpec AssocModel AssocProofs GridSpec GridModel.
Import ListNotations.

Lemma flat_index_inj nc f c f' c' :
  c < nc -> c' < nc -> nc * f + c = nc * f' + c' -> f = f' /\ c = c'.
Proof.
  intros Hc Hc' H.
  assert (f = f').
  { destruct (Nat.lt_trichotomy f f') as [Hl|[He|Hl]]; [|exact He|].
    - assert (nc * (f + 1) <= nc * f') by (apply Nat.mul_le_mono_l; lia). lia.
    - assert (nc * (f' + 1) <= nc * f) by (apply Nat.mul_le_mono_l; lia). lia. }
  subst. lia.
Qed.

Lemma flat_index_bound nc nf f c : c < nc -> f < nf -> nc * f + c < nc * nf.
Proof.
  intros Hc Hf. assert (nc * (f + 1) <= nc * nf) by (apply Nat.mul_le_mono_l; lia). lia.
Qed.

Lemma vec_set_ok {A} (l : list A) i x : i < length l -> vec_set l i x = Ok (list_set l i x).
Proof. intros H. unfold vec_set. apply Nat.ltb_lt in H. rewrite H. reflexivity. Qed.

Lemma vec_get_ok {A} (l : list A) i x : nth_error l i = Some x -> vec_get l i = Ok x.
Proof. intros H. unfold vec_get. rewrite H. reflexivity. Qed.

Lemma vec_resize_length {A} (l : list A) n x : length (vec_resize l n x) = n.
Proof.
  unfold vec_resize. rewrite app_length, firstn_length, repeat_length. lia.
Qed.

Lemma nth_error_firstn {A} (l : list A) n i : nth_error (firstn n l) i = if i <? n then nth_error l i else None.
Proof.
  revert n i. induction l as [|x t IH]; intros [|n] [|i]; cbn [firstn nth_error]; try reflexivity.
  - destruct (S i <? S n); reflexivity.
  - rewrite IH. reflexivity.
Qed.

Lemma nth_error_repeat' {A} (x : A) n i : nth_error (repeat x n) i = if i <? n then Some x else None.
Proof.
  revert i. induction n as [|n IH]; intros [|i]; cbn [repeat nth_error]; try reflexivity.
  rewrite IH. reflexivity.
Qed.

Lemma nth_error_vec_resize {A} (l : list A) n x i :
  nth_error (vec_resize l n x) i =
  if i <? n then (if i <? length l then nth_error l i else Some x) else None.
Proof.
  unfold vec_resize.
  destruct (i <? length (firstn n l)) eqn:E.
  - rewrite nth_error_app1 by lia. rewrite nth_error_firstn. rewrite firstn_length in E.
    replace (i <? length l) with true by lia. destruct (i <? n); reflexivity.
  - rewrite nth_error_app2 by lia. rewrite nth_error_repeat'. rewrite firstn_length in *.
    destruct (i <? n) eqn:E1.
    + replace (i <? length l) with false by lia.
      replace (i - Nat.min n (length l) <? n - length l) with true by lia. reflexivity.
    + replace (i - Nat.min n (length l) <? n - length l) with false by lia. reflexivity.
Qed.

(** ** storage *)
Section StorageProofs.
  Context {T L : Type} (leq : L -> L -> bool) (ldef : L) (tdef : T).
  Hypothesis Hleq : eq_test leq.
  Local Notation sto := (sto T L).
  Local Notation grid := (grid T L).

  Lemma copy_frame_spec (oc nc : nat) (old : list T) fi :
    oc <= nc -> oc * fi + oc <= length old ->
    forall n i nd, i + n = oc -> nc * fi + nc <= length nd ->
    exists nd', ofor_up n i (fun ci nd => do x <- vec_get old (oc * fi + ci); vec_set nd (nc * fi + ci) x) nd = Ok nd' /\
      length nd' = length nd /\
      forall j, nth_error nd' j =
        if (nc * fi + i <=? j) && (j <? nc * fi + oc) then nth_error old (oc * fi + (j - nc * fi)) else nth_error nd j.
  Proof.
    intros Hoc Hold. induction n as [|n IH]; intros i nd Hin Hnd; cbn [ofor_up].
    - exists nd. repeat split. intros j.
      replace ((nc * fi + i <=? j) && (j <? nc * fi + oc)) with false by lia. reflexivity.
    - destruct (nth_error old (oc * fi + i)) as [x|] eqn:Hx.
      2: { apply nth_error_None in Hx. lia. }
      rewrite (vec_get_ok _ _ _ Hx). cbn [obind]. rewrite vec_set_ok by lia. cbn [obind].
      destruct (IH (S i) (list_set nd (nc * fi + i) x)) as [nd' [E [Hl Hj]]]; [lia|rewrite list_set_length; lia|].
      exists nd'. split; [exact E|]. split; [rewrite Hl, list_set_length; reflexivity|].
      intros j. rewrite Hj, nth_error_list_set.
      destruct (Nat.eq_dec (nc * fi + i) j) as [He|He].
      + subst j. replace (nc * fi + S i <=? nc * fi + i) with false by lia. cbn [andb].
        replace ((nc * fi + i =? nc * fi + i) && (nc * fi + i <? length nd)) with true by lia.
        replace ((nc * fi + i <=? nc * fi + i) && (nc * fi + i <? nc * fi + oc)) with true by lia.
        replace (oc * fi + (nc * fi + i - nc * fi)) with (oc * fi + i) by lia. congruence.
      + replace ((nc * fi + i =? j) && (j <? length nd)) with false by lia.
        replace ((nc * fi + i <=? j) && (j <? nc * fi + oc)) with ((nc * fi + S i <=? j) && (j <? nc * fi + oc)) by lia.
        reflexivity.
  Qed.

  Lemma copy_spec (oc nc frames nframes : nat) (old : list T) :
    oc <= nc -> frames <= nframes -> length old = oc * frames ->
    forall n i nd, i + n = frames -> length nd = nc * nframes ->
    exists nd', ofor_up n i (st_copy_frame oc nc old) nd = Ok nd' /\
      length nd' = length nd /\
      forall f c, c < nc -> nth_error nd' (nc * f + c) =
        if (i <=? f) && (f <? frames) && (c <? oc) then nth_error old (oc * f + c) else nth_error nd (nc * f + c).
  Proof.
    intros Hoc Hfr Hold. induction n as [|n IH]; intros i nd Hin Hnd; cbn [ofor_up].
    - exists nd. repeat split. intros f c Hc. replace (i <=? f) with (negb (f <? frames)) by lia.
      destruct (f <? frames); reflexivity.
    - assert (B1 : oc * i + oc <= length old).
      { rewrite Hold. assert (oc * (i + 1) <= oc * frames) by (apply Nat.mul_le_mono_l; lia). lia. }
      assert (B2 : nc * i + nc <= length nd).
      { rewrite Hnd. assert (nc * (i + 1) <= nc * nframes) by (apply Nat.mul_le_mono_l; lia). lia. }
      unfold st_copy_frame at 1.
      destruct (copy_frame_spec oc nc old i Hoc B1 oc 0 nd eq_refl B2) as [nd1 [E1 [Hl1 Hj1]]].
      rewrite E1. cbn [obind].
      destruct (IH (S i) nd1) as [nd' [E [Hl Hj]]]; [lia|lia|].
      exists nd'. split; [exact E|]. split; [lia|].
      intros f c Hc. rewrite (Hj _ _ Hc), Hj1. rewrite Nat.add_0_r.
      destruct (Nat.eq_dec f i) as [->|Hne].
      + replace (S i <=? i) with false by lia. cbn [andb]. replace (i <=? i) with true by lia.
        replace (i <? frames) with true by lia. cbn [andb].
        replace ((nc * i <=? nc * i + c) && (nc * i + c <? nc * i + oc)) with (c <? oc) by lia.
        replace (nc * i + c - nc * i) with c by lia. reflexivity.
      + replace (S i <=? f) with (i <=? f) by lia.
        destruct ((i <=? f) && (f <? frames) && (c <? oc)) eqn:Eb; [reflexivity|].
        destruct ((nc * i <=? nc * f + c) && (nc * f + c <? nc * i + oc)) eqn:Eb2; [|reflexivity].
        exfalso. assert (f = i /\ c = nc * f + c - nc * i); [|lia].
        apply (flat_index_inj nc); lia.
  Qed.

  (** the storage shows the grid *)
  Definition sto_shows (s : sto) (g : grid) : Prop :=
    st_frames s = g_rows g /\ st_channels s = g_cols g /\
    (forall f c, f < g_rows g -> c < g_cols g -> st_get s f c = Ok (g_cell g f c)) /\
    (forall l, st_find_channel leq s l = g_col_of g l) /\
    (forall l i, g_col_of g l = Some i -> i < g_cols g /\ lv_get (st_labels s) i = Ok l).

  Definition st_wf (s : sto) : Prop := length (st_data s) = st_channels s * st_frames s.

  Lemma vec_get_inv {A} (l : list A) i x : vec_get l i = Ok x -> nth_error l i = Some x.
  Proof. unfold vec_get. destruct (nth_error l i); congruence. Qed.

  Lemma st_resize_data s nf nc v :
    st_wf s -> st_frames s <= nf -> st_channels s <= nc ->
    exists s', st_resize ldef s nf nc v = Ok s' /\ st_wf s' /\ st_frames s' = nf /\ st_channels s' = nc /\
      lv_index (st_labels s') = lv_index (st_labels s) /\
      lv_labels (st_labels s') = vec_resize (lv_labels (st_labels s)) nc ldef /\
      forall f c, f < nf -> c < nc ->
        nth_error (st_data s') (nc * f + c) =
        if (f <? st_frames s) && (c <? st_channels s) then nth_error (st_data s) (st_channels s * f + c) else Some v.
  Proof.
    intros Hwf Hf Hc. unfold st_resize.
    replace ((nf <? st_frames s) || (nc <? st_channels s)) with false by lia.
    assert (Hlab : lv_resize ldef (st_labels s) nc =
      Ok {| lv_labels := vec_resize (lv_labels (st_labels s)) nc ldef; lv_index := lv_index (st_labels s) |}).
    { unfold lv_resize. unfold st_channels in Hc. replace (length (lv_labels (st_labels s)) <=? nc) with true by lia. reflexivity. }
    destruct (st_channels s <? nc) eqn:Hlt.
    - destruct (1 <? st_frames s) eqn:H1.
      + unfold st_copy.
        destruct (copy_spec (st_channels s) nc (st_frames s) nf (st_data s) Hc Hf Hwf (st_frames s) 0
                    (repeat v (nc * nf)) eq_refl (repeat_length _ _)) as [nd [E [Hl Hj]]].
        rewrite E. cbn [obind]. rewrite Hlab. cbn [obind].
        eexists. split; [reflexivity|]. unfold st_wf, st_channels. cbn [st_data st_frames st_labels lv_labels lv_index].
        rewrite vec_resize_length. repeat split.
        * rewrite Hl, repeat_length. reflexivity.
        * intros f c Hf' Hc'. rewrite (Hj _ _ Hc'). cbn [Nat.leb andb]. fold (st_channels s).
          rewrite nth_error_repeat'. replace (nc * f + c <? nc * nf) with true; [reflexivity|].
          symmetry. apply Nat.ltb_lt. apply flat_index_bound; assumption.
      + cbn [obind]. rewrite Hlab. cbn [obind].
        eexists. split; [reflexivity|]. unfold st_wf, st_channels. cbn [st_data st_frames st_labels lv_labels lv_index].
        rewrite !vec_resize_length. repeat split.
        * apply Nat.mul_comm.
        * intros f c Hf' Hc'. fold (st_channels s). rewrite nth_error_vec_resize.
          pose proof (flat_index_bound nc nf f c Hc' Hf').
          replace (nc * f + c <? nf * nc) with true by lia.
          unfold st_wf in Hwf.
          destruct (Nat.eq_dec (st_frames s) 0) as [E0|E0].
          -- rewrite E0 in *. replace (f <? 0) with false by lia. cbn [andb]. replace (nc * f + c <? length (st_data s)) with false by lia. reflexivity.
          -- assert (E1 : st_frames s = 1) by lia. rewrite E1 in *.
             rewrite Nat.mul_1_r in Hwf.
             destruct f as [|f].
             ++ rewrite !Nat.mul_0_r, !Nat.add_0_l. rewrite Hwf. replace (0 <? 1) with true by lia. reflexivity.
             ++ replace (S f <? 1) with false by lia. cbn [andb].
                replace (nc * S f + c <? length (st_data s)) with false by lia. reflexivity.
    - assert (nc = st_channels s) by lia. subst nc.
      eexists. split; [reflexivity|]. unfold st_wf. cbn [st_data st_frames].
      unfold st_channels at 1. cbn [st_labels lv_labels].
      rewrite !vec_resize_length. repeat split.
      + apply Nat.mul_comm.
      + unfold vec_resize. unfold st_channels. rewrite firstn_all, Nat.sub_diag, app_nil_r. reflexivity.
      + intros f c Hf' Hc'. rewrite nth_error_vec_resize.
        pose proof (flat_index_bound _ nf f c Hc' Hf').
        replace (st_channels s * f + c <? nf * st_channels s) with true by lia.
        unfold st_wf in Hwf. rewrite Hwf.
        destruct (f <? st_frames s) eqn:E.
        * replace (c <? st_channels s) with true by lia. cbn [andb].
          replace (st_channels s * f + c <? st_channels s * st_frames s) with true; [reflexivity|].
          symmetry. apply Nat.ltb_lt. apply flat_index_bound; lia.
        * cbn [andb]. replace (st_channels s * f + c <? st_channels s * st_frames s) with false; [reflexivity|].
          symmetry. apply Nat.ltb_ge. assert (st_channels s * st_frames s <= st_channels s * f) by (apply Nat.mul_le_mono_l; lia). lia.
  Qed.

  Lemma st_get_nth (s : sto) f c x : st_get s f c = Ok x <-> nth_error (st_data s) (st_channels s * f + c) = Some x.
  Proof.
    unfold st_get. rewrite Nat.mul_comm. split; [apply vec_get_inv|apply vec_get_ok].
  Qed.

  Definition st_inv (s : sto) (g : grid) : Prop := st_wf s /\ sto_shows s g.

  Lemma lv_find_same_index (a b : lvec (L := L)) l : lv_index a = lv_index b -> lv_find leq a l = lv_find leq b l.
  Proof. intros H. unfold lv_find. rewrite H. reflexivity. Qed.

  Lemma st_resize_inv s g nf nc v : st_inv s g -> g_rows g <= nf -> g_cols g <= nc ->
    exists s', st_resize ldef s nf nc v = Ok s' /\ st_inv s' (grid_resize g nf nc v) /\
      lv_index (st_labels s') = lv_index (st_labels s).
  Proof.
    intros [Hwf [Hr [Hc [Hcell [Hfind Hlab]]]]] Hf Hch.
    destruct (st_resize_data s nf nc v Hwf) as [s' [E [Hwf' [Hf' [Hc' [Hix [Hls Hd]]]]]]]; [lia|lia|].
    exists s'. split; [exact E|]. split; [|exact Hix]. split; [exact Hwf'|].
    cbn [grid_resize g_rows g_cols g_cell g_col_of].
    repeat split; cbn [grid_resize g_rows g_cols g_cell g_col_of].
    - exact Hf'.
    - exact Hc'.
    - intros f c Hlf Hlc. apply st_get_nth. rewrite Hc', Hd by assumption.
      unfold in_grid. rewrite Hr, Hc.
      destruct ((f <? g_rows g) && (c <? g_cols g)) eqn:Eb; [|reflexivity].
      specialize (Hcell f c). rewrite st_get_nth in Hcell. rewrite Hc in Hcell. apply Hcell; lia.
    - intros l. unfold st_find_channel in *. rewrite <- Hfind. apply lv_find_same_index, Hix.
    - destruct (Hlab _ _ H). lia.
    - destruct (Hlab _ _ H) as [Hi Hg]. unfold lv_get in *. apply vec_get_inv in Hg. apply vec_get_ok.
      rewrite Hls, nth_error_vec_resize.
      replace (i <? nc) with true by lia. unfold st_channels in Hc. replace (i <? length _) with true by lia. exact Hg.
  Qed.

  Lemma leq_refl l : leq l l = true.
  Proof. apply Hleq. reflexivity. Qed.

  (** labelling the last channel *)
  Lemma st_label_last s g l n :
    st_inv s g -> g_cols g = S n -> g_col_of g l = None ->
    (forall l', g_col_of g l' = Some n -> False) ->
    exists lb, lv_set leq (st_labels s) (st_channels s - 1) l = Ok (lb, n) /\
      st_inv {| st_frames := st_frames s; st_labels := lb; st_data := st_data s |} (label_col leq g l n).
  Proof.
    intros [Hwf [Hr [Hc [Hcell [Hfind Hlab]]]]] Hn Hnew Hfree.
    unfold lv_set. fold (st_channels s). rewrite Hc, Hn. replace (S n - 1) with n by lia.
    replace (n <? S n) with true by lia.
    pose proof (Hfind l) as Hfl. unfold st_find_channel in Hfl. rewrite Hfl, Hnew. cbn [andb].
    eexists. split; [reflexivity|]. split.
    - unfold st_wf, st_channels. cbn [st_labels lv_labels st_data st_frames]. rewrite list_set_length. exact Hwf.
    - unfold sto_shows. unfold st_channels, st_find_channel. cbn [st_labels lv_labels st_data st_frames label_col g_rows g_cols g_cell g_col_of].
      rewrite list_set_length. fold (st_channels s).
      repeat split; [exact Hr|exact Hc| | | |].
      + intros f c Hlf Hlc. rewrite st_get_nth. unfold st_channels. cbn [st_labels lv_labels st_data]. rewrite list_set_length.
        apply st_get_nth. apply Hcell; assumption.
      + intros l'. unfold set_label. rewrite (lv_find_map_set leq Hleq).
        destruct (leq l l') eqn:E; [reflexivity|]. rewrite <- Hfind. apply lv_find_same_index. reflexivity.
      + unfold set_label in H. destruct (leq l l0) eqn:E; [injection H as <-; lia|]. apply Hlab in H. tauto.
      + unfold set_label in H. unfold lv_get. apply vec_get_ok. cbn [lv_labels].
        destruct (leq l l0) eqn:E.
        * injection H as <-. apply Hleq in E. subst l0. apply nth_error_list_set_eq. unfold st_channels in Hc. lia.
        * rewrite nth_error_list_set_neq by (intros ->; eauto). apply vec_get_inv. apply Hlab, H.
  Qed.

  Lemma st_new_channel s g l v :
    st_inv s g ->
    match grid_new_col leq g l v with
    | Some g' => exists s', st_add_channel leq ldef s l v = (s', Ok (g_cols g)) /\ st_inv s' g'
    | None => exists s', st_add_channel leq ldef s l v = (s', Throw)
    end.
  Proof.
    intros Hinv. unfold st_add_channel.
    pose proof Hinv as [Hwf [Hr [Hc [Hcell [Hfind Hlab]]]]].
    destruct (st_resize_inv s g (st_frames s) (st_channels s + 1) v Hinv) as [s1 [E [Hinv1 Hix]]]; [lia|lia|].
    rewrite E. unfold grid_new_col.
    rewrite Hr, Hc, Nat.add_1_r in Hinv1.
    pose proof Hinv1 as [_ [_ [Hc1 [_ [Hfind1 _]]]]]. cbn [grid_resize g_cols g_col_of] in Hc1, Hfind1.
    destruct (g_col_of g l) as [i|] eqn:Hl.
    - unfold lv_set. pose proof (Hfind1 l) as Hfl. unfold st_find_channel in Hfl. rewrite Hfl, Hl.
      rewrite andb_false_r. eauto.
    - destruct (st_label_last s1 _ l (g_cols g) Hinv1) as [lb [E2 Hinv2]]; [reflexivity|exact Hl| |].
      + cbn [grid_resize g_col_of]. intros l' H. apply Hlab in H. lia.
      + rewrite E2. eauto.
  Qed.

  Lemma st_put_inv s g f c x : st_inv s g -> f < g_rows g -> c < g_cols g ->
    exists s', st_put s f c x = Ok s' /\ st_inv s' (grid_put g f c x) /\ st_labels s' = st_labels s.
  Proof.
    intros [Hwf [Hr [Hc [Hcell [Hfind Hlab]]]]] Hf Hcl. unfold st_put.
    assert (B : f * st_channels s + c < length (st_data s)).
    { rewrite Hwf, (Nat.mul_comm f). apply flat_index_bound; lia. }
    rewrite vec_set_ok by exact B. cbn [obind]. eexists. split; [reflexivity|]. split; [|reflexivity].
    split.
    - unfold st_wf, st_channels. cbn [st_data st_labels st_frames]. rewrite list_set_length. exact Hwf.
    - repeat split; cbn [grid_put g_rows g_cols g_cell g_col_of st_frames st_labels]; try assumption.
      + intros f' c' Hf' Hc'. apply st_get_nth. cbn [st_data].
        match goal with |- context [st_channels ?r * f' + c'] => change (st_channels r) with (st_channels s) end.
        rewrite nth_error_list_set, (Nat.mul_comm f).
        destruct ((f' =? f) && (c' =? c)) eqn:E.
        * assert (f' = f) by lia. assert (c' = c) by lia. subst.
          rewrite Nat.eqb_refl. rewrite (Nat.mul_comm f) in B. apply Nat.ltb_lt in B. rewrite B. reflexivity.
        * replace (st_channels s * f + c =? st_channels s * f' + c') with false.
          -- cbn [andb]. apply st_get_nth. apply Hcell; assumption.
          -- symmetry. apply Nat.eqb_neq. intros He.
             apply flat_index_inj in He; lia.
      + apply Hlab in H. tauto.
      + apply Hlab in H. tauto.
  Qed.

  (** filling the samples of channel [c] *)
  Definition grid_fill (g : grid) (c first n : nat) (data : list T) : grid :=
    {| g_rows := g_rows g; g_cols := g_cols g;
       g_cell := fun r c' => if (c' =? c) && (first <=? r) && (r <? first + n) then nth r data tdef else g_cell g r c';
       g_row_of := g_row_of g; g_col_of := g_col_of g |}.

  Lemma st_inv_ext s g g' : g_rows g = g_rows g' -> g_cols g = g_cols g' ->
    (forall r c, r < g_rows g -> c < g_cols g -> g_cell g r c = g_cell g' r c) ->
    (forall l, g_col_of g l = g_col_of g' l) -> st_inv s g -> st_inv s g'.
  Proof.
    intros H1 H2 H3 H4 [Hwf [Hr [Hc [Hcell [Hfind Hlab]]]]].
    split; [exact Hwf|]. repeat split.
    - congruence.
    - congruence.
    - intros f c Hf Hcl. rewrite <- H3 by congruence. apply Hcell; congruence.
    - intros l. rewrite Hfind. apply H4.
    - rewrite <- H4 in H. apply Hlab in H. rewrite <- H2. tauto.
    - rewrite <- H4 in H. apply Hlab in H. tauto.
  Qed.

  Lemma st_fill_inv data c : forall n i s g, st_inv s g -> c < g_cols g -> i + n = length data -> length data <= g_rows g ->
    exists s', ofor_up n i (fun fi s => do x <- vec_get data fi; st_put s fi c x) s = Ok s' /\
      st_inv s' (grid_fill g c i n data) /\ st_labels s' = st_labels s.
  Proof.
    induction n as [|n IH]; intros i s g Hinv Hc Hi Hd; cbn [ofor_up].
    - exists s. split; [reflexivity|]. split; [|reflexivity].
      apply (st_inv_ext s g); try reflexivity; try exact Hinv.
      intros r c' _ _; cbn [grid_fill g_cell]; replace ((c' =? c) && (i <=? r) && (r <? i + 0)) with false by lia; reflexivity.
    - destruct (nth_error data i) as [x|] eqn:Hx.
      2: { apply nth_error_None in Hx. lia. }
      rewrite (vec_get_ok _ _ _ Hx). cbn [obind].
      destruct (st_put_inv s g i c x Hinv) as [s1 [E1 [Hinv1 Hl1]]]; [lia|lia|].
      rewrite E1. cbn [obind].
      destruct (IH (S i) s1 _ Hinv1) as [s' [E [Hinv' Hl']]]; [exact Hc|lia|exact Hd|].
      exists s'. split; [exact E|]. split; [|congruence].
      eapply st_inv_ext with (5 := Hinv'); try reflexivity.
      intros r c' _ _. cbn [grid_fill grid_put g_cell].
      destruct (Nat.eq_dec c' c) as [->|Hne]; [|replace (c' =? c) with false by lia; rewrite andb_false_r; reflexivity].
      destruct (Nat.eq_dec r i) as [->|Hne].
      + replace ((c =? c) && (S i <=? i) && (i <? S i + n)) with false by lia.
        replace ((i =? i) && (c =? c)) with true by lia.
        replace ((c =? c) && (i <=? i) && (i <? i + S n)) with true by lia.
        symmetry. apply nth_error_nth with (1 := Hx).
      + replace ((r =? i) && (c =? c)) with false by lia.
        replace ((c =? c) && (S i <=? r) && (r <? S i + n)) with ((c =? c) && (i <=? r) && (r <? i + S n)) by lia.
        reflexivity.
  Qed.

  (** appending a block of length [n] to the data *)
  Lemma copy_tail (data : list T) : forall n i d base, i + n = length data -> length d = base + length data ->
    exists d', ofor_up n i (fun i d => do x <- vec_get data i; vec_set d (length d - length data + i) x) d = Ok d' /\
      length d' = length d /\
      forall j, nth_error d' j = if (base + i <=? j) && (j <? base + length data) then nth_error data (j - base) else nth_error d j.
  Proof.
    induction n as [|n IH]; intros i d base Hi Hd; cbn [ofor_up].
    - exists d. repeat split. intros j. replace ((base + i <=? j) && (j <? base + length data)) with false by lia. reflexivity.
    - destruct (nth_error data i) as [x|] eqn:Hx.
      2: { apply nth_error_None in Hx. lia. }
      rewrite (vec_get_ok _ _ _ Hx). cbn [obind].
      rewrite vec_set_ok by lia. cbn [obind].
      replace (length d - length data + i) with (base + i) by lia.
      destruct (IH (S i) (list_set d (base + i) x) base) as [d' [E [Hl Hj]]]; [lia|rewrite list_set_length; exact Hd|].
      exists d'. split; [exact E|]. split; [rewrite Hl; apply list_set_length|].
      intros j. rewrite Hj, nth_error_list_set.
      destruct (Nat.eq_dec (base + i) j) as [<-|He].
      + replace (base + S i <=? base + i) with false by lia. cbn [andb].
        replace ((base + i =? base + i) && (base + i <? length d)) with true by lia.
        replace ((base + i <=? base + i) && (base + i <? base + length data)) with true by lia.
        replace (base + i - base) with i by lia. congruence.
      + replace ((base + i =? j) && (j <? length d)) with false by lia.
        replace (base + S i <=? j) with (base + i <=? j) by lia. reflexivity.
  Qed.

  Lemma st_call_spec s g o : st_inv s g ->
    match sto_spec leq tdef g o with
    | Some g' => exists s', st_call leq ldef tdef s o = Ok s' /\ st_inv s' g'
    | None => match o with SPut _ _ _ => True | _ => st_call leq ldef tdef s o = Throw end
    end.
  Proof.
    intros Hinv. pose proof Hinv as [Hwf [Hr [Hc [Hcell [Hfind Hlab]]]]].
    destruct o as [f c x|fr ch v|l v|l data|l v|v|data|]; cbn [sto_spec st_call].
    - destruct (in_grid g f c) eqn:E; [|exact I]. unfold in_grid in E.
      destruct (st_put_inv s g f c x Hinv) as [s' [E1 [E2 _]]]; [lia|lia|]. eauto.
    - destruct ((g_rows g <=? fr) && (g_cols g <=? ch)) eqn:E.
      + destruct (st_resize_inv s g fr ch v Hinv) as [s' [E1 [E2 _]]]; [lia|lia|]. eauto.
      + unfold st_resize. rewrite Hr, Hc. replace ((fr <? g_rows g) || (ch <? g_cols g)) with true by lia. reflexivity.
    - pose proof (st_new_channel s g l v Hinv) as H. destruct (grid_new_col leq g l v) as [g'|].
      + destruct H as [s' [E H]]. rewrite E. cbn [omap]. eauto.
      + destruct H as [s' E]. rewrite E. reflexivity.
    - unfold st_add_channel_data.
      destruct (st_resize_inv s g (Nat.max (st_frames s) (length data)) (st_channels s + 1) tdef Hinv) as [s1 [E [Hinv1 Hix]]]; [lia|lia|].
      rewrite E. rewrite Hr, Hc, Nat.add_1_r in Hinv1.
      pose proof Hinv1 as [_ [_ [Hc1 [_ [Hfind1 _]]]]]. cbn [grid_resize g_cols g_col_of] in Hc1, Hfind1.
      destruct (g_col_of g l) as [i|] eqn:Hl.
      + unfold lv_set. pose proof (Hfind1 l) as Hfl. unfold st_find_channel in Hfl. rewrite Hfl, Hl.
        rewrite andb_false_r. reflexivity.
      + destruct (st_label_last s1 _ l (g_cols g) Hinv1) as [lb [E2 Hinv2]]; [reflexivity|exact Hl| |].
        * cbn [grid_resize g_col_of]. intros l' H. apply Hlab in H. lia.
        * rewrite E2. pose proof Hinv2 as [_ [_ [Hc2 _]]]. cbn [label_col grid_resize g_cols] in Hc2.
          rewrite Hc2. replace (S (g_cols g) - 1) with (g_cols g) by lia.
          destruct (st_fill_inv data (g_cols g) (length data) 0 _ _ Hinv2) as [s3 [E3 [Hinv3 _]]]; cbn [label_col grid_resize g_cols g_rows]; [lia|lia|lia|].
          unfold st_fill_channel. rewrite E3. cbn [omap]. eexists. split; [reflexivity|].
          eapply st_inv_ext with (5 := Hinv3); try reflexivity.
          intros r c _ _. cbn [grid_fill label_col grid_resize g_cell]. cbn [Nat.leb]. rewrite andb_true_r. reflexivity.
    - unfold st_find_or_add_channel. rewrite Hfind. destruct (g_col_of g l) as [i|] eqn:Hl.
      + cbn [omap]. eauto.
      + pose proof (st_new_channel s g l v Hinv) as H. unfold grid_new_col in *. rewrite Hl in *.
        destruct H as [s' [E H]]. rewrite E. cbn [omap]. eauto.
    - eexists. split; [reflexivity|].
      assert (E : st_add_frame s v = {| st_frames := S (st_frames s); st_labels := st_labels s;
                   st_data := vec_resize (st_data s) (S (st_frames s) * st_channels s) v |}).
      { unfold st_add_frame. rewrite Hwf. f_equal. f_equal. lia. }
      destruct (st_resize_inv s g (S (g_rows g)) (g_cols g) v Hinv) as [s' [E1 [Hi _]]]; [lia|lia|].
      unfold st_resize in E1. rewrite Hr, Hc in E1.
      replace ((S (g_rows g) <? g_rows g) || (g_cols g <? g_cols g)) with false in E1 by lia.
      rewrite Nat.ltb_irrefl in E1. assert (E2 : st_add_frame s v = s') by (rewrite E, Hr, Hc; congruence). rewrite E2. exact Hi.
    - unfold st_add_frame_data. rewrite Hc. destruct (length data =? g_cols g) eqn:E; [|reflexivity].
      apply Nat.eqb_eq in E. rewrite <- E.
      destruct (copy_tail data (length data) 0 (vec_resize (st_data s) (length (st_data s) + length data) tdef) (length (st_data s)))
        as [d' [E1 [Hl Hj]]]; [lia|rewrite vec_resize_length; lia|].
      rewrite E1. cbn [obind]. eexists. split; [reflexivity|].
      rewrite vec_resize_length in Hl. split.
      + unfold st_wf, st_channels. cbn [st_data st_labels st_frames]. fold (st_channels s). rewrite Hl, Hwf. lia.
      + repeat split; cbn [g_rows g_cols g_cell g_col_of st_frames st_labels].
        * congruence.
        * unfold st_channels; cbn [st_labels]. fold (st_channels s). congruence.
        * intros f c Hf Hcl. apply st_get_nth. unfold st_channels; cbn [st_labels st_data]. fold (st_channels s).
          rewrite Hj, nth_error_vec_resize, Hwf, Hc, Hr, Nat.add_0_r.
          destruct (f =? g_rows g) eqn:Ef.
          -- assert (f = g_rows g) by lia. subst f.
             replace ((g_cols g * g_rows g <=? g_cols g * g_rows g + c) && (g_cols g * g_rows g + c <? g_cols g * g_rows g + length data)) with true by lia.
             replace (g_cols g * g_rows g + c - g_cols g * g_rows g) with c by lia. apply nth_error_nth'. lia.
          -- assert (f < g_rows g) by lia. pose proof (flat_index_bound _ _ _ _ Hcl H).
             replace ((g_cols g * g_rows g <=? g_cols g * f + c) && (g_cols g * f + c <? g_cols g * g_rows g + length data)) with false by lia.
             replace (g_cols g * f + c <? g_cols g * g_rows g + length data) with true by lia.
             replace (g_cols g * f + c <? g_cols g * g_rows g) with true by lia.
             rewrite <- Hc. apply st_get_nth. apply Hcell; lia.
        * exact Hfind.
        * apply Hlab in H. lia.
        * apply Hlab in H. tauto.
    - eexists. split; [reflexivity|]. split; [reflexivity|]. repeat split; cbn [grid_empty g_col_of g_rows g_cols] in *; try discriminate.
      intros f c Hf. lia.
  Qed.

  Lemma st_run_spec ops : forall s g g', st_inv s g -> spec_run (sto_spec leq tdef) g ops = Some g' ->
    exists s', st_run leq ldef tdef s ops = Ok s' /\ st_inv s' g'.
  Proof.
    induction ops as [|o t IH]; intros s g g' Hinv H; cbn [spec_run st_run] in *.
    - injection H as <-. eauto.
    - pose proof (st_call_spec s g o Hinv) as Hs. destruct (sto_spec leq tdef g o) as [g1|]; [|discriminate].
      destruct Hs as [s1 [E Hinv1]]. rewrite E. cbn [obind]. eapply IH; eauto.
  Qed.

  Lemma st_inv_make : st_inv (st_make ldef 0 0 tdef) (grid_empty tdef).
  Proof.
    split; [reflexivity|]. repeat split; cbn [grid_empty g_col_of g_rows g_cols] in *; try discriminate.
    intros f c Hf. lia.
  Qed.

  Lemma get_channel_spec s g c : st_inv s g -> c < g_cols g ->
    forall n i acc, i + n = g_rows g -> length acc = g_rows g ->
    exists acc', ofor_up n i (fun fi vec => do x <- st_get s fi c; vec_set vec fi x) acc = Ok acc' /\
      length acc' = length acc /\
      forall j, j < g_rows g -> nth_error acc' j = if i <=? j then Some (g_cell g j c) else nth_error acc j.
  Proof.
    intros [Hwf [Hr [Hc [Hcell _]]]] Hcl. induction n as [|n IH]; intros i acc Hi Hl; cbn [ofor_up].
    - exists acc. repeat split. intros j Hj. replace (i <=? j) with false by lia. reflexivity.
    - rewrite Hcell by lia. cbn [obind]. rewrite vec_set_ok by lia. cbn [obind].
      destruct (IH (S i) (list_set acc i (g_cell g i c))) as [acc' [E [Hl' Hj]]]; [lia|rewrite list_set_length; exact Hl|].
      exists acc'. split; [exact E|]. split; [rewrite Hl'; apply list_set_length|].
      intros j Hlt. rewrite Hj by exact Hlt. rewrite nth_error_list_set.
      destruct (Nat.eq_dec i j) as [<-|Hne].
      + replace (S i <=? i) with false by lia. replace ((i =? i) && (i <? length acc)) with true by lia.
        replace (i <=? i) with true by lia. reflexivity.
      + replace ((i =? j) && (j <? length acc)) with false by lia. replace (S i <=? j) with (i <=? j) by lia. reflexivity.
  Qed.

  Lemma list_eq_nth {A} (l1 l2 : list A) : length l1 = length l2 ->
    (forall j, j < length l1 -> nth_error l1 j = nth_error l2 j) -> l1 = l2.
  Proof.
    revert l2. induction l1 as [|x t IH]; intros [|y l2] Hl H; try discriminate; [reflexivity|].
    pose proof (H 0 ltac:(cbn; lia)) as H0. cbn in H0. injection H0 as ->. f_equal. apply IH; [cbn in Hl; lia|].
    intros j Hj. apply (H (S j)). cbn. lia.
  Qed.

  Lemma st_get_channel_inv s g c : st_inv s g -> c < g_cols g ->
    st_get_channel tdef s c = Ok (map (fun f => g_cell g f c) (seq 0 (g_rows g))).
  Proof.
    intros Hinv Hc. pose proof Hinv as [_ [Hr _]]. unfold st_get_channel. rewrite Hr.
    destruct (get_channel_spec s g c Hinv Hc (g_rows g) 0 (repeat tdef (g_rows g))) as [acc [E [Hl Hj]]]; [lia|apply repeat_length|].
    rewrite E. f_equal. rewrite repeat_length in Hl. apply list_eq_nth.
    - rewrite map_length, seq_length. exact Hl.
    - intros j Hlt. rewrite Hj by lia. cbn [Nat.leb]. symmetry. rewrite nth_error_map.
      rewrite (nth_error_nth' _ 0) by (rewrite seq_length; lia). rewrite seq_nth by lia. reflexivity.
  Qed.

  (** assembled *)
  Lemma storage_history ops g :
    spec_run (sto_spec leq tdef) (grid_empty tdef) ops = Some g ->
    exists s, st_run leq ldef tdef (st_make ldef 0 0 tdef) ops = Ok s /\
      st_frames s = g_rows g /\ st_channels s = g_cols g /\
      (forall f c, f < g_rows g -> c < g_cols g -> st_get s f c = Ok (g_cell g f c)) /\
      (forall c, c < g_cols g -> st_get_channel tdef s c = Ok (map (fun f => g_cell g f c) (seq 0 (g_rows g)))) /\
      (forall l, st_find_channel leq s l = g_col_of g l) /\
      (forall l i, g_col_of g l = Some i -> lv_get (st_labels s) i = Ok l) /\
      (forall o, sto_spec leq tdef g o = None ->
         match o with SPut _ _ _ => True | _ => st_call leq ldef tdef s o = Throw end).
  Proof.
    intros H. destruct (st_run_spec ops _ _ _ st_inv_make H) as [s [E Hinv]].
    exists s. split; [exact E|]. pose proof Hinv as [_ [Hr [Hc [Hcell [Hfind Hlab]]]]].
    repeat split; try assumption.
    - intros c Hcl. apply st_get_channel_inv; assumption.
    - intros l i Hl. apply Hlab, Hl.
    - intros o Ho. pose proof (st_call_spec s g o Hinv) as Hs. rewrite Ho in Hs. exact Hs.
  Qed.
End StorageProofs.

(** ** find_frame_index *)
Section FindFrameProofs.
  Lemma ff_search_partition col v n :
    partitioned_at (fun x => (x <? v)%Z) col n ->
    forall fuel first len, len <= fuel -> first + len <= length col -> first <= n -> n <= first + len ->
    ff_search col v fuel first len = Ok n.
  Proof.
    intros [Hn Hp]. induction fuel as [|f IH]; intros first len Hf Hl H1 H2; cbn [ff_search].
    - replace (len =? 0) with true by lia. f_equal. lia.
    - destruct (len =? 0) eqn:E0; [f_equal; lia|].
      assert (Hh : Nat.div2 len < len) by (apply div2_lt_pos; lia).
      destruct (nth_error col (first + Nat.div2 len)) as [x|] eqn:Hx.
      2: { apply nth_error_None in Hx. lia. }
      rewrite (vec_get_ok _ _ _ Hx). cbn [obind].
      pose proof (Hp _ _ Hx) as Hq. cbn beta in Hq. rewrite Hq.
      destruct (first + Nat.div2 len <? n) eqn:E.
      + apply IH; lia.
      + apply IH; lia.
  Qed.

  Lemma sorted_mono v col : non_decreasing col -> mono_list (fun x => (x <? v)%Z) col.
  Proof.
    induction col as [|x t IH]; intros Hs; cbn; [exact I|]. split.
    - intros Hx. apply Forall_forall. intros y Hy. apply In_nth_error in Hy as [j Hj].
      assert ((x <= y)%Z) by (apply (Hs 0 (S j) x y); [lia|reflexivity|exact Hj]). lia.
    - apply IH. intros i j a b Hij Ha Hb. apply (Hs (S i) (S j)); [lia|exact Ha|exact Hb].
  Qed.

  Lemma find_frame_nearest col v :
    non_decreasing col -> col <> [] ->
    exists i x, find_frame_index col v = Ok (Some i) /\ nth_error col i = Some x /\
    forall j y, nth_error col j = Some y ->
      (j = 0 -> (v <= y)%Z \/ exists y1, nth_error col 1 = Some y1 /\ (y1 < v)%Z) ->
      (Z.abs (x - v) <= Z.abs (y - v))%Z.
  Proof.
    intros Hs Hne.
    pose proof (prefix_len_partitioned _ _ (sorted_mono v col Hs)) as Hp.
    set (n := prefix_len _ col) in *.
    assert (E : ff_search col v (length col) 0 (length col) = Ok n).
    { apply ff_search_partition; [exact Hp|lia|lia|lia|destruct Hp; lia]. }
    assert (Hlen : 0 < length col) by (destruct col; [congruence|cbn; lia]).
    assert (Hunf : find_frame_index col v =
      (let first := Nat.min n (length col - 1) in
       if 1 <? first then do p <- vec_get col (first - 1); do q <- vec_get col first;
         if (v - p <? q - v)%Z then Ok (Some (first - 1)) else Ok (Some first) else Ok (Some first))).
    { unfold find_frame_index. destruct col; [congruence|]. rewrite E. reflexivity. }
    rewrite Hunf. clear Hunf. cbv zeta. destruct Hp as [Hn Hp].
    set (first := Nat.min n (length col - 1)) in *.
    destruct (nth_error col first) as [q|] eqn:Hq.
    2: { apply nth_error_None in Hq. lia. }
    destruct (1 <? first) eqn:E1.
    - destruct (nth_error col (first - 1)) as [p|] eqn:Hpp.
      2: { apply nth_error_None in Hpp. lia. }
      rewrite (vec_get_ok _ _ _ Hpp), (vec_get_ok _ _ _ Hq). cbn [obind].
      pose proof (Hp _ _ Hpp) as B1. pose proof (Hp _ _ Hq) as B2. cbn beta in B1, B2.
      assert (B1' : (p < v)%Z) by lia.
      assert (Hcase : (first = n /\ (v <= q)%Z) \/ (n = length col /\ (q < v)%Z)) by lia.
      assert (Hbelow : forall j y, nth_error col j = Some y -> j < first -> (y <= p)%Z).
      { intros j y Hy Hj. apply (Hs j (first - 1)); [lia|exact Hy|exact Hpp]. }
      assert (Habove : forall j y, nth_error col j = Some y -> first <= j -> (q <= y)%Z).
      { intros j y Hy Hj. apply (Hs first j); [lia|exact Hq|exact Hy]. }
      assert (Hlast : n = length col -> forall j y, nth_error col j = Some y -> (y <= q)%Z).
      { intros Hnn j y Hy. assert (j < length col) by (apply nth_error_Some; congruence).
        apply (Hs j first); [lia|exact Hy|exact Hq]. }
      destruct (v - p <? q - v)%Z eqn:E2.
      + exists (first - 1), p. split; [reflexivity|]. split; [exact Hpp|]. intros j y Hy _.
        destruct (Nat.lt_ge_cases j first) as [Hj|Hj].
        * specialize (Hbelow _ _ Hy Hj). lia.
        * specialize (Habove _ _ Hy Hj). lia.
      + exists first, q. split; [reflexivity|]. split; [exact Hq|]. intros j y Hy _.
        destruct Hcase as [[H1 H2]|[H1 H2]].
        * destruct (Nat.lt_ge_cases j first) as [Hj|Hj].
          -- specialize (Hbelow _ _ Hy Hj). lia.
          -- specialize (Habove _ _ Hy Hj). lia.
        * specialize (Hlast H1 _ _ Hy). lia.
    - exists first, q. split; [reflexivity|]. split; [exact Hq|]. intros j y Hy Hj0.
      assert (Hjl : j < length col) by (apply nth_error_Some; congruence).
      pose proof (Hp _ _ Hq) as B2. cbn beta in B2.
      destruct (Nat.eq_dec first 0) as [Hf|Hf].
      + destruct (Nat.eq_dec n 0) as [Hn0|Hn0].
        * pose proof (Hs first j q y ltac:(lia) Hq Hy). lia.
        * assert (j = first) by lia. subst j. rewrite Hq in Hy. injection Hy as <-. lia.
      + assert (Hf1 : first = 1) by lia. rewrite Hf1 in *.
        destruct (Nat.eq_dec j 0) as [->|Hj].
        * destruct (Hj0 eq_refl) as [Hv|[y1 [Hy1 Hv]]].
          -- pose proof (Hp _ _ Hy) as B0. cbn beta in B0. lia.
          -- rewrite Hq in Hy1. injection Hy1 as <-. pose proof (Hs 0 1 y q ltac:(lia) Hy Hq). lia.
        * pose proof (Hs 1 j q y ltac:(lia) Hq Hy). destruct (Z.le_gt_cases v q); [lia|].
          assert (j = 1) by lia. subst j. rewrite Hq in Hy. injection Hy as <-. lia.
  Qed.
End FindFrameProofs.

(** ** table *)
Section TableProofs.
  Context {T L : Type} (leq : L -> L -> bool) (ldef : L) (tdef : T).
  Hypothesis Hleq : eq_test leq.
  Local Notation tab := (tab T L).
  Local Notation grid := (grid T L).

  (** progress of the in-place reorganisation: cells below flat position [p] are untouched, the others final *)
  Definition moved (oc nc rows : nat) (dv : T) (d0 d : list T) (p : nat) : Prop :=
    length d = rows * nc /\
    (forall j, j < p -> nth_error d j = nth_error d0 j) /\
    (forall r c, r < rows -> c < nc -> p <= nc * r + c ->
       nth_error d (nc * r + c) = if c <? oc then nth_error d0 (oc * r + c) else Some dv).

  Lemma move_row_spec oc nc rows dv d0 ri :
    oc <= nc -> ri < rows -> length d0 = rows * nc ->
    forall n d, n <= nc -> moved oc nc rows dv d0 d (nc * ri + n) ->
    exists d', ofor_down n (fun ci d =>
      if (ri <? rows) && (ci <? oc)
      then do x <- vec_get d (oc * ri + ci); vec_set d (nc * ri + ci) x
      else vec_set d (nc * ri + ci) dv) d = Ok d' /\ moved oc nc rows dv d0 d' (nc * ri).
  Proof.
    intros Hoc Hri Hd0. induction n as [|n IH]; intros d Hn Hm; cbn [ofor_down].
    - exists d. split; [reflexivity|]. rewrite Nat.add_0_r in Hm. exact Hm.
    - destruct Hm as [Hl [Hlow Hhigh]].
      assert (B : nc * ri + n < length d).
      { rewrite Hl, (Nat.mul_comm rows). apply flat_index_bound; lia. }
      assert (B2 : oc * ri + n <= nc * ri + n).
      { apply Nat.add_le_mono_r. apply Nat.mul_le_mono_r. exact Hoc. }
      replace ((ri <? rows) && (n <? oc)) with (n <? oc) by lia.
      assert (Hset : forall x, (if n <? oc then nth_error d0 (oc * ri + n) else Some dv) = Some x ->
        moved oc nc rows dv d0 (list_set d (nc * ri + n) x) (nc * ri + n)).
      { intros x Hx. split; [rewrite list_set_length; exact Hl|]. split.
        - intros j Hj. rewrite nth_error_list_set_neq by lia. apply Hlow. lia.
        - intros r c Hr Hc Hp. destruct (Nat.eq_dec (nc * ri + n) (nc * r + c)) as [He|He].
          + apply flat_index_inj in He; [|lia|lia]. destruct He as [<- <-].
            rewrite nth_error_list_set_eq by exact B. symmetry. exact Hx.
          + rewrite nth_error_list_set_neq by exact He. apply Hhigh; lia. }
      destruct (n <? oc) eqn:E.
      + destruct (nth_error d0 (oc * ri + n)) as [x|] eqn:Hx.
        2: { apply nth_error_None in Hx. lia. }
        assert (Hx' : nth_error d (oc * ri + n) = Some x) by (rewrite Hlow by lia; exact Hx).
        rewrite (vec_get_ok _ _ _ Hx'). cbn [obind]. rewrite vec_set_ok by exact B. cbn [obind].
        apply IH; [lia|]. apply Hset. reflexivity.
      + rewrite vec_set_ok by exact B. cbn [obind]. apply IH; [lia|]. apply Hset. reflexivity.
  Qed.

  Lemma move_spec oc nc rows dv d0 :
    oc <= nc -> length d0 = rows * nc ->
    forall n d, n <= rows -> moved oc nc rows dv d0 d (nc * n) ->
    exists d', ofor_down n (tb_move_row rows oc nc dv) d = Ok d' /\ moved oc nc rows dv d0 d' 0.
  Proof.
    intros Hoc Hd0. induction n as [|n IH]; intros d Hn Hm; cbn [ofor_down].
    - exists d. rewrite Nat.mul_0_r in Hm. auto.
    - unfold tb_move_row at 1.
      destruct (move_row_spec oc nc rows dv d0 n Hoc ltac:(lia) Hd0 nc d (le_n _)) as [d1 [E Hm1]].
      { replace (nc * n + nc) with (nc * S n) by lia. exact Hm. }
      rewrite E. cbn [obind]. apply IH; [lia|exact Hm1].
  Qed.

  Lemma move_overflow orows oc nc rows dv (d : list T) :
    length d = orows * nc -> orows < rows -> 0 < nc -> tb_move orows oc rows nc dv d = UB.
  Proof.
    intros Hl Hr Hc. unfold tb_move. destruct rows as [|r]; [lia|]. cbn [ofor_down].
    unfold tb_move_row at 1. destruct nc as [|c]; [lia|]. cbn [ofor_down].
    replace (r <? orows) with false by lia. cbn [andb].
    unfold vec_set. replace (S c * r + c <? length d) with false; [reflexivity|].
    symmetry. apply Nat.ltb_ge. rewrite Hl. rewrite (Nat.mul_comm orows).
    assert (S c * orows <= S c * r) by (apply Nat.mul_le_mono_l; lia). lia.
  Qed.

  Definition tb_wf (t : tab) : Prop := length (tb_data t) = tb_row_size t * tb_col_size t.

  Definition labels_ok (v : lvec (L := L)) (pos : L -> option nat) (n : nat) : Prop :=
    length (lv_labels v) = n /\
    (forall l, lv_find leq v l = pos l) /\
    (forall l i, pos l = Some i -> i < n /\ lv_get v i = Ok l).

  Definition tb_inv (t : tab) (g : grid) : Prop :=
    tb_wf t /\
    labels_ok (tb_rows t) (g_row_of g) (g_rows g) /\
    labels_ok (tb_cols t) (g_col_of g) (g_cols g) /\
    (forall r c, r < g_rows g -> c < g_cols g -> tb_get t r c = Ok (g_cell g r c)).

  Lemma tb_get_nth (t : tab) r c x : r < tb_row_size t -> c < tb_col_size t ->
    (tb_get t r c = Ok x <-> nth_error (tb_data t) (tb_col_size t * r + c) = Some x).
  Proof.
    intros Hr Hc. unfold tb_get. replace ((r <? tb_row_size t) && (c <? tb_col_size t)) with true by lia.
    rewrite (Nat.mul_comm r). split; [apply vec_get_inv|apply vec_get_ok].
  Qed.

  Lemma labels_resize v pos n m : labels_ok v pos n -> n <= m ->
    exists v', lv_resize ldef v m = Ok v' /\ labels_ok v' pos m.
  Proof.
    intros [Hl [Hf Hg]] Hm. unfold lv_resize. rewrite Hl. replace (n <=? m) with true by lia.
    eexists. split; [reflexivity|]. split; [apply vec_resize_length|]. split.
    - intros l. rewrite <- Hf. reflexivity.
    - intros l i Hp. destruct (Hg _ _ Hp) as [Hi Hget]. split; [lia|].
      unfold lv_get in *. apply vec_get_ok. cbn [lv_labels]. rewrite nth_error_vec_resize.
      replace (i <? m) with true by lia. replace (i <? length (lv_labels v)) with true by lia.
      apply vec_get_inv. exact Hget.
  Qed.

  Lemma labels_set_last v pos n l : labels_ok v pos (S n) -> pos l = None -> (forall l', pos l' = Some n -> False) ->
    exists v', lv_set leq v n l = Ok (v', n) /\ labels_ok v' (set_label leq pos l n) (S n).
  Proof.
    intros [Hl [Hf Hg]] Hp Hfree. unfold lv_set. rewrite Hl, Hf, Hp. replace (n <? S n) with true by lia. cbn [andb].
    eexists. split; [reflexivity|]. split; [cbn [lv_labels]; rewrite list_set_length; exact Hl|]. split.
    - intros l'. unfold set_label. rewrite (lv_find_map_set leq Hleq).
      destruct (leq l l') eqn:E; [reflexivity|]. rewrite <- Hf. reflexivity.
    - intros l' i. unfold set_label. destruct (leq l l') eqn:E.
      + injection 1 as <-. split; [lia|]. apply Hleq in E. subst l'. unfold lv_get. apply vec_get_ok. cbn [lv_labels].
        apply nth_error_list_set_eq. lia.
      + intros H. destruct (Hg _ _ H) as [Hi Hget]. split; [exact Hi|]. unfold lv_get in *. apply vec_get_ok. cbn [lv_labels].
        rewrite nth_error_list_set_neq by (intros ->; eauto). apply vec_get_inv. exact Hget.
  Qed.

  Lemma labels_add v pos n l : labels_ok v pos n -> pos l = None ->
    exists v', lv_add leq v l = Ok (v', n) /\ labels_ok v' (set_label leq pos l n) (S n).
  Proof.
    intros [Hl [Hf Hg]] Hp. unfold lv_add. rewrite Hf, Hp.
    eexists. split.
    - rewrite app_length, Hl. cbn [length]. rewrite Nat.add_sub. reflexivity.
    - split; [cbn [lv_labels]; rewrite app_length, Hl; cbn; lia|]. split.
      + intros l'. unfold set_label. rewrite (lv_find_map_set leq Hleq).
        destruct (leq l l') eqn:E; [reflexivity|]. rewrite <- Hf. reflexivity.
      + intros l' i. unfold set_label. destruct (leq l l') eqn:E.
        * injection 1 as <-. split; [lia|]. apply Hleq in E. subst l'. unfold lv_get. apply vec_get_ok. cbn [lv_labels].
          rewrite nth_error_app2 by lia. rewrite Hl, Nat.sub_diag. reflexivity.
        * intros H. destruct (Hg _ _ H) as [Hi Hget]. split; [lia|]. unfold lv_get in *. apply vec_get_ok. cbn [lv_labels].
          rewrite nth_error_app1 by lia. apply vec_get_inv. exact Hget.
  Qed.

  Lemma tb_resize_ok t g rows cols v : tb_inv t g -> g_rows g <= rows -> g_cols g <= cols ->
    if (g_rows g <? rows) && (0 <? cols) then tb_resize ldef tdef t rows cols v = UB
    else exists t', tb_resize ldef tdef t rows cols v = Ok t' /\ tb_inv t' (grid_resize g rows cols v).
  Proof.
    intros [Hwf [Hrl [Hcl Hcell]]] Hr Hc.
    pose proof (proj1 Hrl) as Hrs. pose proof (proj1 Hcl) as Hcs. fold (tb_row_size t) in Hrs. fold (tb_col_size t) in Hcs.
    unfold tb_resize. rewrite Hrs, Hcs. replace ((rows <? g_rows g) || (cols <? g_cols g)) with false by lia.
    destruct ((g_rows g <? rows) && (0 <? cols)) eqn:E.
    { rewrite move_overflow; [reflexivity|apply vec_resize_length|lia|lia]. }
    assert (Hm : exists d', tb_move (g_rows g) (g_cols g) rows cols v (vec_resize (tb_data t) (g_rows g * cols) tdef) = Ok d' /\
      length d' = rows * cols /\
      forall r c, r < rows -> c < cols -> nth_error d' (cols * r + c) =
        if in_grid g r c then nth_error (tb_data t) (g_cols g * r + c) else Some v).
    { destruct (Nat.eq_dec cols 0) as [->|Hc0].
      - exists (vec_resize (tb_data t) (g_rows g * 0) tdef). split.
        + unfold tb_move, tb_move_row. cbn [ofor_down]. clear. induction rows as [|r IH]; cbn [ofor_down obind]; [reflexivity|exact IH].
        + rewrite vec_resize_length. split; [lia|]. intros; lia.
      - assert (rows = g_rows g) by lia. subst rows. unfold tb_move.
        destruct (move_spec (g_cols g) cols (g_rows g) v (vec_resize (tb_data t) (g_rows g * cols) tdef) Hc (vec_resize_length _ _ _) (g_rows g)
          (vec_resize (tb_data t) (g_rows g * cols) tdef) (le_n _)) as [d' [E1 [Hl [_ Hd]]]].
        { split; [apply vec_resize_length|]. split; [reflexivity|]. intros r c Hlr Hlc Hp.
          pose proof (flat_index_bound cols (g_rows g) r c Hlc Hlr). lia. }
        exists d'. split; [exact E1|]. split; [exact Hl|]. intros r c Hlr Hlc.
        rewrite Hd by lia. unfold in_grid. replace (r <? g_rows g) with true by lia. cbn [andb].
        destruct (c <? g_cols g) eqn:Ec; [|reflexivity].
        rewrite nth_error_vec_resize.
        pose proof (flat_index_bound (g_cols g) (g_rows g) r c ltac:(lia) Hlr).
        unfold tb_wf in Hwf. rewrite Hrs, Hcs in Hwf.
        assert (g_rows g * g_cols g <= g_rows g * cols) by (apply Nat.mul_le_mono_l; exact Hc).
        replace (g_cols g * r + c <? g_rows g * cols) with true by lia.
        replace (g_cols g * r + c <? length (tb_data t)) with true by lia. reflexivity. }
    destruct Hm as [d' [E1 [Hl Hd]]]. rewrite E1. cbn [obind].
    destruct (labels_resize _ _ _ cols Hcl Hc) as [cl [E2 Hcl']]. rewrite E2. cbn [obind].
    destruct (labels_resize _ _ _ rows Hrl Hr) as [rl [E3 Hrl']]. rewrite E3. cbn [obind].
    eexists. split; [reflexivity|].
    pose proof (proj1 Hrl') as Hrs'. pose proof (proj1 Hcl') as Hcs'.
    split; [|split; [|split]].
    - unfold tb_wf, tb_row_size, tb_col_size. cbn [tb_data tb_rows tb_cols]. congruence.
    - exact Hrl'.
    - exact Hcl'.
    - cbn [grid_resize g_rows g_cols g_cell]. intros r c Hlr Hlc.
      apply tb_get_nth; unfold tb_row_size, tb_col_size; cbn [tb_rows tb_cols tb_data]; [lia|lia|].
      rewrite Hcs', Hd by assumption. destruct (in_grid g r c) eqn:Eg; [|reflexivity].
      unfold in_grid in Eg. assert (Hg : tb_get t r c = Ok (g_cell g r c)) by (apply Hcell; lia).
      apply tb_get_nth in Hg; [|lia|lia]. rewrite Hcs in Hg. exact Hg.
  Qed.

  Lemma tb_add_row_spec t g l v : tb_inv t g ->
    match grid_new_row leq g l v with
    | Some g' => exists t', tb_add_row leq t l v = Ok (t', g_rows g) /\ tb_inv t' g'
    | None => tb_add_row leq t l v = Throw
    end.
  Proof.
    intros [Hwf [Hrl [Hcl Hcell]]]. unfold grid_new_row, tb_add_row.
    pose proof (proj1 Hrl) as Hrs. pose proof (proj1 Hcl) as Hcs. fold (tb_row_size t) in Hrs. fold (tb_col_size t) in Hcs.
    destruct (g_row_of g l) as [i|] eqn:E.
    - unfold lv_add. rewrite (proj1 (proj2 Hrl)), E. reflexivity.
    - destruct (labels_add _ _ _ l Hrl E) as [rl [E1 Hrl']]. rewrite E1. cbn [obind fst].
      pose proof (proj1 Hrl') as Hrs'. rewrite Hrs'. rewrite Nat.sub_succ, Nat.sub_0_r.
      eexists. split; [reflexivity|]. split; [|split; [|split]].
      + unfold tb_wf, tb_row_size, tb_col_size. cbn [tb_data tb_rows tb_cols]. rewrite vec_resize_length. congruence.
      + exact Hrl'.
      + exact Hcl.
      + cbn [label_row grid_resize g_rows g_cols g_cell]. intros r c Hr Hc.
        apply tb_get_nth; unfold tb_row_size, tb_col_size; cbn [tb_rows tb_cols tb_data]; fold (tb_col_size t); [lia|lia|].
        rewrite nth_error_vec_resize, Hcs. pose proof (flat_index_bound (g_cols g) (S (g_rows g)) r c Hc Hr).
        replace (g_cols g * r + c <? S (g_rows g) * g_cols g) with true by lia.
        unfold tb_wf in Hwf. rewrite Hwf, Hrs, Hcs. unfold in_grid. replace (c <? g_cols g) with true by lia. rewrite andb_true_r.
        destruct (r <? g_rows g) eqn:Er.
        * pose proof (flat_index_bound (g_cols g) (g_rows g) r c Hc ltac:(lia)).
          replace (g_cols g * r + c <? g_rows g * g_cols g) with true by lia.
          rewrite <- Hcs. apply tb_get_nth; [lia|lia|]. apply Hcell; lia.
        * assert (r = g_rows g) by lia. subst r. replace (g_cols g * g_rows g + c <? g_rows g * g_cols g) with false by lia. reflexivity.
  Qed.

  Lemma tb_add_col_spec t g l v : tb_inv t g ->
    match grid_new_col leq g l v with
    | Some g' => exists t', tb_add_column leq ldef tdef t l v = (t', Ok (g_cols g)) /\ tb_inv t' g'
    | None => exists t', tb_add_column leq ldef tdef t l v = (t', Throw)
    end.
  Proof.
    intros Hinv. unfold grid_new_col, tb_add_column.
    pose proof Hinv as [Hwf [Hrl [Hcl Hcell]]].
    pose proof (proj1 Hrl) as Hrs. pose proof (proj1 Hcl) as Hcs. fold (tb_row_size t) in Hrs. fold (tb_col_size t) in Hcs.
    rewrite Hrs, Hcs, Nat.add_1_r.
    pose proof (tb_resize_ok t g (g_rows g) (S (g_cols g)) v Hinv ltac:(lia) ltac:(lia)) as H.
    rewrite Nat.ltb_irrefl in H. cbn [andb] in H. destruct H as [t1 [E1 Hinv1]]. rewrite E1.
    pose proof Hinv1 as [Hwf1 [Hrl1 [Hcl1 Hcell1]]]. cbn [grid_resize g_cols g_col_of g_rows g_row_of] in *.
    pose proof (proj1 Hcl1) as Hcs1. fold (tb_col_size t1) in Hcs1. rewrite Hcs1, Nat.sub_succ, Nat.sub_0_r.
    destruct (g_col_of g l) as [i|] eqn:E.
    - unfold lv_set. rewrite (proj1 (proj2 Hcl1)), E, andb_false_r. eauto.
    - destruct (labels_set_last _ _ _ l Hcl1 E) as [cl [E2 Hcl2]].
      { intros l' Hl'. apply (proj2 (proj2 Hcl)) in Hl'. lia. }
      rewrite E2. eexists. split; [reflexivity|].
      pose proof (proj1 Hcl2) as Hcs2.
      split; [|split; [|split]].
      + unfold tb_wf, tb_row_size, tb_col_size in *. cbn [tb_data tb_rows tb_cols]. congruence.
      + exact Hrl1.
      + exact Hcl2.
      + intros r c Hr Hc. transitivity (tb_get t1 r c); [|exact (Hcell1 r c Hr Hc)]. unfold tb_get, tb_row_size, tb_col_size in *. cbn [tb_rows tb_cols tb_data].
        rewrite Hcs1, Hcs2. reflexivity.
  Qed.

  Lemma tb_put_spec t g r c x : tb_inv t g ->
    if in_grid g r c then exists t', tb_put t r c x = Ok t' /\ tb_inv t' (grid_put g r c x)
    else tb_put t r c x = Throw.
  Proof.
    intros [Hwf [Hrl [Hcl Hcell]]]. unfold tb_put, in_grid.
    pose proof (proj1 Hrl) as Hrs. pose proof (proj1 Hcl) as Hcs. fold (tb_row_size t) in Hrs. fold (tb_col_size t) in Hcs.
    rewrite Hrs, Hcs. destruct ((r <? g_rows g) && (c <? g_cols g)) eqn:E; [|reflexivity].
    pose proof (flat_index_bound (g_cols g) (g_rows g) r c ltac:(lia) ltac:(lia)) as B.
    unfold tb_wf in Hwf. rewrite Hrs, Hcs in Hwf. rewrite (Nat.mul_comm r).
    rewrite vec_set_ok by lia. cbn [obind]. eexists. split; [reflexivity|].
    split; [|split; [|split]]; try assumption.
    - unfold tb_wf, tb_row_size, tb_col_size in *. cbn [tb_data tb_rows tb_cols]. rewrite list_set_length. congruence.
    - cbn [grid_put g_rows g_cols g_cell]. intros r' c' Hr' Hc'.
      apply tb_get_nth; unfold tb_row_size, tb_col_size; cbn [tb_rows tb_cols tb_data]; fold (tb_col_size t); fold (tb_row_size t); [lia|lia|].
      rewrite Hcs, nth_error_list_set.
      destruct ((r' =? r) && (c' =? c)) eqn:E2.
      + assert (r' = r) by lia. assert (c' = c) by lia. subst. rewrite Nat.eqb_refl.
        replace (g_cols g * r + c <? length (tb_data t)) with true by lia. reflexivity.
      + replace (g_cols g * r + c =? g_cols g * r' + c') with false.
        * cbn [andb]. rewrite <- Hcs. apply tb_get_nth; [lia|lia|]. apply Hcell; lia.
        * symmetry. apply Nat.eqb_neq. intros He. apply flat_index_inj in He; lia.
  Qed.

  (** the call that makes the table larger in both directions at once *)
  Definition adds_rows (g : grid) (o : tab_op T L) : bool :=
    match o with TResize rows cols _ => (g_rows g <? rows) && (0 <? cols) | _ => false end.

  Lemma tb_call_spec t g o : tb_inv t g ->
    match tab_spec leq g o with
    | Some g' => if adds_rows g o then tb_call leq ldef tdef t o = UB
                 else exists t', tb_call leq ldef tdef t o = Ok t' /\ tb_inv t' g'
    | None => tb_call leq ldef tdef t o = Throw
    end.
  Proof.
    intros Hinv. pose proof Hinv as [Hwf [Hrl [Hcl Hcell]]].
    pose proof (proj1 Hrl) as Hrs. pose proof (proj1 Hcl) as Hcs. fold (tb_row_size t) in Hrs. fold (tb_col_size t) in Hcs.
    destruct o as [r c x|l v|l v|l v|l v|rows cols v]; cbn [tab_spec tb_call adds_rows].
    - pose proof (tb_put_spec t g r c x Hinv) as H. destruct (in_grid g r c); exact H.
    - pose proof (tb_add_row_spec t g l v Hinv) as H. destruct (grid_new_row leq g l v).
      + destruct H as [t' [E H]]. rewrite E. cbn [omap fst]. eauto.
      + rewrite H. reflexivity.
    - pose proof (tb_add_col_spec t g l v Hinv) as H. destruct (grid_new_col leq g l v).
      + destruct H as [t' [E H]]. rewrite E. cbn [omap]. eauto.
      + destruct H as [t' E]. rewrite E. reflexivity.
    - unfold tb_get_or_add_row, tb_find_row. rewrite (proj1 (proj2 Hrl)).
      destruct (g_row_of g l) as [i|] eqn:El; [cbn [omap fst]; eauto|].
      pose proof (tb_add_row_spec t g l v Hinv) as H. unfold grid_new_row in *. rewrite El in *.
      destruct H as [t' [E H]]. rewrite E. cbn [omap fst]. eauto.
    - unfold tb_get_or_add_column, tb_find_column. rewrite (proj1 (proj2 Hcl)).
      destruct (g_col_of g l) as [i|] eqn:El; [cbn [omap]; eauto|].
      pose proof (tb_add_col_spec t g l v Hinv) as H. unfold grid_new_col in *. rewrite El in *.
      destruct H as [t' [E H]]. rewrite E. cbn [omap]. eauto.
    - destruct ((g_rows g <=? rows) && (g_cols g <=? cols)) eqn:E.
      + pose proof (tb_resize_ok t g rows cols v Hinv ltac:(lia) ltac:(lia)) as H.
        destruct ((g_rows g <? rows) && (0 <? cols)); exact H.
      + unfold tb_resize. rewrite Hrs, Hcs. replace ((rows <? g_rows g) || (cols <? g_cols g)) with true by lia. reflexivity.
  Qed.

  Fixpoint no_row_growth (g : grid) (ops : list (tab_op T L)) : bool :=
    match ops with
    | [] => true
    | o :: r => negb (adds_rows g o) && match tab_spec leq g o with Some g' => no_row_growth g' r | None => true end
    end.

  Lemma tb_run_spec ops : forall t g, tb_inv t g ->
    match tb_run leq ldef tdef t ops with
    | Ok t' => exists g', spec_run (tab_spec leq) g ops = Some g' /\ tb_inv t' g'
    | Throw => spec_run (tab_spec leq) g ops = None
    | UB => exists rows cols v, In (TResize rows cols v) ops
    end.
  Proof.
    induction ops as [|o r IH]; intros t g Hinv; cbn [spec_run tb_run].
    - eauto.
    - pose proof (tb_call_spec t g o Hinv) as H. destruct (tab_spec leq g o) as [g1|].
      + destruct (adds_rows g o) eqn:Ea.
        * rewrite H. cbn [obind]. destruct o; try discriminate. do 3 eexists. left. reflexivity.
        * destruct H as [t1 [E Hinv1]]. rewrite E. cbn [obind]. specialize (IH t1 g1 Hinv1).
          destruct (tb_run leq ldef tdef t1 r); try assumption. destruct IH as (a & b & c & Hin). do 3 eexists. right. exact Hin.
      + rewrite H. reflexivity.
  Qed.

  Lemma tb_inv_make : tb_inv (tb_make ldef tdef 0 0) (grid_empty tdef).
  Proof.
    split; [reflexivity|]. split; [|split].
    - split; [reflexivity|]. split; [reflexivity|]. cbn. discriminate.
    - split; [reflexivity|]. split; [reflexivity|]. cbn. discriminate.
    - cbn. intros; lia.
  Qed.

  Lemma table_history ops :
    match tb_run leq ldef tdef (tb_make ldef tdef 0 0) ops with
    | Ok t => exists g, spec_run (tab_spec leq) (grid_empty tdef) ops = Some g /\
        tb_row_size t = g_rows g /\ tb_col_size t = g_cols g /\
        (forall r c, tb_get t r c = if in_grid g r c then Ok (g_cell g r c) else Throw) /\
        (forall l, tb_find_row leq t l = g_row_of g l) /\
        (forall l, tb_find_column leq t l = g_col_of g l) /\
        (forall l i, g_row_of g l = Some i -> lv_get (tb_rows t) i = Ok l) /\
        (forall l i, g_col_of g l = Some i -> lv_get (tb_cols t) i = Ok l)
    | Throw => spec_run (tab_spec leq) (grid_empty tdef) ops = None
    | UB => exists rows cols v, In (TResize rows cols v) ops
    end.
  Proof.
    pose proof (tb_run_spec ops _ _ tb_inv_make) as H.
    destruct (tb_run leq ldef tdef (tb_make ldef tdef 0 0) ops) as [t| |]; try exact H.
    destruct H as [g [E [Hwf [Hrl [Hcl Hcell]]]]]. exists g. split; [exact E|].
    split; [apply Hrl|]. split; [apply Hcl|]. split.
    - intros r c. destruct (in_grid g r c) eqn:Eg.
      + unfold in_grid in Eg. apply Hcell; lia.
      + unfold tb_get. destruct Hrl as [Hrs _], Hcl as [Hcs _].
        unfold tb_row_size, tb_col_size. rewrite Hrs, Hcs. unfold in_grid in Eg. rewrite Eg. reflexivity.
    - split; [apply Hrl|]. split; [apply Hcl|]. split; intros l i Hl; [apply Hrl, Hl|apply Hcl, Hl].
  Qed.
End TableProofs.
