(** C199: numbers in settings as doubles, written with six digits. *)
From Coq Require Import Ascii String List Arith Bool ZArith Reals SpecFloat Lia Lra.
From Flocq Require Import Core IEEE754.BinarySingleNaN.
From Verif Require Import Base Str StrModel CastSpec CastModel PnSpec PnModel SetSpec SetModel SetProofs SetTheorems FltSpec FltModel DurModel SdbSpec SdbModel SdbProofs.
Import ListNotations.

(** C199: after a value was accepted for a setting with a range, get gives the number closest to it in the range, up to six digits *)
Theorem C199_set (is_color is_vec3 : pn -> bool) schema ops data id ks v s dflt lo hi : separate schema -> Forall named_op ops -> double_run is_color is_vec3 schema pn_empty ops = Ok data ->
  names id ks -> setting schema ks s -> has_child s "default" dflt -> double_range s = Ok (Some (lo, hi)) -> Bleb lo hi = true -> snd (read_double (pn_value dflt)) = true ->
  ordinary_value v dflt -> type_ok read_double Bleb is_color is_vec3 s v -> allowed_ok s v ->
  exists data' u d y, try_set read_double write_double Bleb Bltb is_color is_vec3 schema data id v = Ok (data', true) /\ get_node schema data' id = Ok u /\
    restricted Bleb lo hi (fst (read_double (pn_value v))) d /\ read_double (pn_value u) = (y, true) /\ six_of d y.
Proof. exact (double_set is_color is_vec3 schema ops data id ks v s dflt lo hi). Qed.
Print Assumptions C199_set.
(** what is stored after any calls *)
Theorem C199_stored (is_color is_vec3 : pn -> bool) schema ops data ks s dflt lo hi u : separate schema -> (forall s, ~ setting schema [] s) -> Forall named_op ops -> double_run is_color is_vec3 schema pn_empty ops = Ok data ->
  setting schema ks s -> has_child s "default" dflt -> double_range s = Ok (Some (lo, hi)) -> Bleb lo hi = true -> at_keys data ks u ->
  exists d y, (d = B754_nan \/ Bleb lo d = true /\ Bleb d hi = true) /\ read_double (pn_value u) = (y, true) /\ six_of d y.
Proof. exact (double_stored is_color is_vec3 schema ops data ks s dflt lo hi u). Qed.
Print Assumptions C199_stored.
(** saving and loading gives every setting the value it had; the numbers that are stored for settings with a range must not be subnormal *)
Theorem C199_reload_partial (is_color is_vec3 : pn -> bool) schema ops data cur : separate schema -> (forall s, ~ setting schema [] s) -> (forall ks s, ~ setting schema (lit "version" :: ks) s) ->
  (forall ks s dflt, setting schema ks s -> has_child s "default" dflt -> exists r, double_range s = Ok r /\
     (forall lo hi, r = Some (lo, hi) -> Bleb lo hi = true /\ snd (read_double (pn_value dflt)) = true /\ (forall l, ~ has_child s "allowed" l) /\
        forall t, has_child s "type" t -> pn_value t = lit "float" \/ pn_value t = lit "int" /\ is_finite lo = true /\ is_finite hi = true)) ->
  Forall named_op ops -> double_run is_color is_vec3 schema pn_empty ops = Ok data -> (exists w, from_str_version (to_str_version cur) (Ver 0 0 0 0 []) = Ok (w, true)) ->
  (forall ks s r u, setting schema ks s -> double_range s = Ok (Some r) -> at_keys data ks u -> ~ subnormal (fst (read_double (pn_value u)))) ->
  exists data', double_load is_color is_vec3 schema pn_empty (Some (saved data cur)) = Ok data' /\
    forall id ks s, names id ks -> setting schema ks s -> exists u u', get_node schema data id = Ok u /\ get_node schema data' id = Ok u' /\ same_tree u' u.
Proof. exact (double_reload is_color is_vec3 schema ops data cur). Qed.
Print Assumptions C199_reload_partial.

Definition all_pn : pn -> bool := fun _ => true.
(** a setting from 0 to 2/3 *)
Definition gain_setting : pn := node [("type", leaf "float"); ("default", leaf "0.5"); ("range", leaf "0..0.66666666")]%string.
Definition gain_schema : pn := node [("gain", gain_setting)]%string.
Definition gain_bounds : f64 * f64 := Eval vm_compute in match double_range gain_setting with Ok (Some b) => b | _ => (B754_nan, B754_nan) end.
Example C199_case : exists data, separate gain_schema /\ setting gain_schema [lit "gain"] gain_setting /\ double_range gain_setting = Ok (Some gain_bounds) /\ Bleb (fst gain_bounds) (snd gain_bounds) = true /\
  double_run all_pn all_pn gain_schema pn_empty [SetOp (lit "gain") (leaf "0.123456789")] = Ok data /\ get_node gain_schema data (lit "gain") = Ok (leaf "0.123457") /\
  double_load all_pn all_pn gain_schema pn_empty (Some (saved data (Ver 1 2 3 0 []))) = Ok data /\ ~ subnormal (fst (read_double (lit "0.123457"))).
Proof.
  eexists. split; [apply separate_check; vm_compute; reflexivity|]. split; [apply setting_check; vm_compute; reflexivity|]. split; [vm_compute; reflexivity|]. split; [vm_compute; reflexivity|]. split; [vm_compute; reflexivity|]. split; [vm_compute; reflexivity|]. split; [vm_compute; reflexivity|].
  intros [_ L]. revert L. rewrite real_value. destruct (read_real (lit "0.123457")) as [-> _]. assert (E : exists m, fst (from_str_float f_double (lit "0.123457")) = S754_finite false m (-56) /\ (1 <= Zpos m)%Z) by (vm_compute; eexists; split; [reflexivity|discriminate]).
  destruct E as (m & -> & M). unfold value. apply IZR_le in M. pose proof (powerRZ_lt 2 (-56) ltac:(lra)). rewrite Rabs_pos_eq by (apply Rmult_le_pos; lra). intros L.
  assert (powerRZ 2 (-1022) <= powerRZ 2 (-56))%R by (rewrite !FltNum.p2; apply bpow_le; lia). nra.
Qed.
(** the number that get gives can be outside the range *)
Theorem C199_outside_refuted : exists data u y, double_run all_pn all_pn gain_schema pn_empty [SetOp (lit "gain") (leaf "1")] = Ok data /\ double_range gain_setting = Ok (Some gain_bounds) /\
  get_node gain_schema data (lit "gain") = Ok u /\ read_double (pn_value u) = (y, true) /\ Bltb (snd gain_bounds) y = true.
Proof. eexists. eexists. eexists. split; [vm_compute; reflexivity|]. split; [vm_compute; reflexivity|]. split; [vm_compute; reflexivity|]. split; vm_compute; reflexivity. Qed.
Print Assumptions C199_outside_refuted.
(** a subnormal number changes when it is saved and loaded *)
Theorem C199_subnormal_refuted : exists data data', double_run all_pn all_pn gain_schema pn_empty [SetOp (lit "gain") (leaf "1.0000036891520582e-318")] = Ok data /\ get_node gain_schema data (lit "gain") = Ok (leaf "1e-318") /\
  double_load all_pn all_pn gain_schema pn_empty (Some (saved data (Ver 0 0 0 0 []))) = Ok data' /\ get_node gain_schema data' (lit "gain") = Ok (leaf "9.99999e-319").
Proof. eexists. eexists. split; [vm_compute; reflexivity|]. split; [vm_compute; reflexivity|]. split; vm_compute; reflexivity. Qed.
Print Assumptions C199_subnormal_refuted.
