(** Theorems about colours. *)
From Coq Require Import Ascii String List Arith Bool NArith ZArith Reals Lra Lia.
From Flocq Require Import Core IEEE754.BinarySingleNaN.
From Verif Require Import Base Str StrSpec PnSpec PnModel NumSpec NumModel NumProofs GpnSpec CastModel ColSpec ColModel ColProofs.
Import ListNotations.

(** ** C111 hexadecimal colours, in single precision *)
Theorem C111_rgb : forall x, (x < 2 ^ 24)%N -> hex_rgb_from_color (color_from_hex_rgb x) = Ok x.
Proof. exact hex_rgb_back. Qed.
Print Assumptions C111_rgb.
Example C111_rgb_case : hex_rgb_from_color (color_from_hex_rgb 0xffa07e) = Ok 0xffa07e%N. Proof. apply C111_rgb. reflexivity. Qed.

Theorem C111_rgba : forall x, (x < 2 ^ 32)%N -> hex_rgba_from_color (color_from_hex_rgba x) = Ok x.
Proof. exact hex_rgba_back. Qed.
Print Assumptions C111_rgba.
Example C111_rgba_case : hex_rgba_from_color (color_from_hex_rgba 0xdeadbeef) = Ok 0xdeadbeef%N. Proof. apply C111_rgba. reflexivity. Qed.

Theorem C111_channels : forall x,
  (let c := color_from_hex_rgb x in near_byte (byte_of x 2) (c_r c) /\ near_byte (byte_of x 1) (c_g c) /\ near_byte (byte_of x 0) (c_b c) /\ B2R (c_a c) = 1%R) /\
  (let c := color_from_hex_rgba x in near_byte (byte_of x 3) (c_r c) /\ near_byte (byte_of x 2) (c_g c) /\ near_byte (byte_of x 1) (c_b c) /\ near_byte (byte_of x 0) (c_a c)).
Proof. exact hex_channels_assembled. Qed.
Print Assumptions C111_channels.
Example C111_channels_case : byte_of 0xffa07e 2 = 255%N /\ byte_of 0xffa07e 1 = 160%N /\ B2R (c_r (color_from_hex_rgb 0xffa07e)) = 1%R.
Proof. split; [reflexivity|]. split; [reflexivity|]. destruct (C111_channels 0xffa07e) as [(R & _) _]. apply R. reflexivity. Qed.

Theorem C111_nearest_byte : forall v,
  (is_finite v = true -> exists b, float_to_byte v = Ok b /\ (b <= 255)%N /\ (Rabs (IZR (Z.of_N b) - 255 * Rmax 0 (Rmin 1 (B2R v))) <= / 2 + / 65536)%R) /\
  (v = B754_infinity false -> float_to_byte v = Ok 255%N) /\ (v = B754_infinity true -> float_to_byte v = Ok 0%N).
Proof. exact nearest_byte_assembled. Qed.
Print Assumptions C111_nearest_byte.
Example C111_nearest_byte_case : float_to_byte (f32_div (f32_of_Z 1) (f32_of_Z 2)) = Ok 128%N /\ float_to_byte (f32_of_Z (-3)) = Ok 0%N. Proof. split; vm_compute; reflexivity. Qed.

(** a NaN channel: the conversion to an integer is undefined *)
Theorem C111_nan_refuted : exists v : f32, float_to_byte v = UB.
Proof. exact nan_byte. Qed.
Print Assumptions C111_nan_refuted.

(** ** C112 hue, saturation, value *)
Open Scope R_scope.
Theorem C112_hsv_partial : forall H S V, 0 <= H -> 0 <= S <= 1 -> 0 <= V <= 1 ->
  let c := color_from_hsv H S V in
  is_hsv c H S V /\ largest_channel c = V /\ smallest_channel c = V * (1 - S) /\ unit_channels c /\ forall k : nat, color_from_hsv (H + INR k * 360) S V = c.
Proof. exact hsv_assembled. Qed.
Print Assumptions C112_hsv_partial.
Example C112_hsv_case : largest_channel (color_from_hsv 200 (1 / 4) (1 / 2)) = 1 / 2. Proof. apply C112_hsv_partial; lra. Qed.

Theorem C112_negative_hue_refuted : exists H S V, 0 <= S <= 1 /\ 0 <= V <= 1 /\ ~ is_hsv (color_from_hsv H S V) H S V /\ color_from_hsv H S V <> color_from_hsv (H + 360) S V.
Proof. exact negative_hue. Qed.
Print Assumptions C112_negative_hue_refuted.

(** different hue, saturation or value give different colours *)
Theorem C112_distinct : forall H1 S1 V1 H2 S2 V2, 0 <= H1 < 360 -> 0 <= H2 < 360 -> 0 < S1 <= 1 -> 0 < S2 <= 1 -> 0 < V1 -> 0 < V2 ->
  color_from_hsv H1 S1 V1 = color_from_hsv H2 S2 V2 -> H1 = H2 /\ S1 = S2 /\ V1 = V2.
Proof. exact hsv_determines. Qed.
Print Assumptions C112_distinct.
Example C112_distinct_case : color_from_hsv 10 1 1 <> color_from_hsv 20 1 1.
Proof. intros E. apply C112_distinct in E; lra. Qed.

Theorem C112_named : forall br sat,
  color_red br sat = color_from_hsv 0 sat br /\ color_orange br sat = color_from_hsv 30 sat br /\ color_yellow br sat = color_from_hsv 60 sat br /\ color_green br sat = color_from_hsv 120 sat br /\
  color_cyan br sat = color_from_hsv 180 sat br /\ color_blue br sat = color_from_hsv 240 sat br /\ color_magenta br sat = color_from_hsv 300 sat br /\ color_white br = color_from_hsv 0 0 br.
Proof. exact named_assembled. Qed.
Print Assumptions C112_named.
Example C112_named_case : color_from_hsv 240 1 1 = C4 0 0 1 1.
Proof. destruct (C112_named 1 1) as (_ & _ & _ & _ & _ & B & _). rewrite <- B. apply C4_eq; cbn; ring. Qed.
Close Scope R_scope.

(** ** C113 order and clamping *)
Theorem C113_order : forall T (ok : T -> Prop) ltb leb eqb, ordered ok ltb leb -> (forall a b, ok a -> ok b -> eqb a b = negb (ltb a b) && negb (ltb b a)) ->
  let all c := ok (c_r c) /\ ok (c_g c) /\ ok (c_b c) /\ ok (c_a c) in
  ordered all (color_less ltb eqb) (fun a b => negb (color_less ltb eqb b a)) /\
  forall a b, all a -> all b ->
    (color_less ltb eqb a b = true <-> lex_less (fun x y => ltb x y = true) a b) /\
    (color_eq eqb a b = true <-> color_less ltb eqb a b = false /\ color_less ltb eqb b a = false) /\
    color_ne eqb a b = negb (color_eq eqb a b).
Proof. exact @order_assembled. Qed.
Print Assumptions C113_order.
Example C113_order_case : ordered (fun _ => True) Rltb Rleb /\ (forall a b, Reqb a b = negb (Rltb a b) && negb (Rltb b a)).
Proof. split; [exact reals_ordered|]. intros a b. unfold Reqb, Rltb. destruct (Req_EM_T a b), (Rlt_dec a b), (Rlt_dec b a); try reflexivity; exfalso; lra. Qed.

Theorem C113_clamp : forall T (ok : T -> Prop) ltb leb (c : rgba T) l u, ordered ok ltb leb -> ok (c_r c) -> ok (c_g c) -> ok (c_b c) -> ok (c_a c) -> ok l -> ok u -> leb l u = true ->
  each (fun x y => leb l y = true /\ leb y u = true /\ (leb l x = true -> leb x u = true -> y = x)) c (color_clamp ltb c l u).
Proof. exact @clamp_assembled. Qed.
Print Assumptions C113_clamp.
Example C113_clamp_case : color_clamp Nat.ltb (C4 3 12 7 0) 5 10 = C4 5 10 7 5. Proof. reflexivity. Qed.

(** ** C114 arithmetic *)
Open Scope R_scope.
Theorem C114_arithmetic_partial : forall (c1 c2 c3 : rgba R) (s t : R),
  color_add c1 c2 = color_add c2 c1 /\ color_add c1 (color_add c2 c3) = color_add (color_add c1 c2) c3 /\
  color_add (color_sub c1 c2) c2 = c1 /\ color_scale Float 1 c1 = c1 /\
  color_scale Float s (color_scale Float t c1) = color_scale Float (s * t) c1 /\
  color_scale Float s (color_add c1 c2) = color_add (color_scale Float s c1) (color_scale Float s c2) /\
  color_scale Float (s + t) c1 = color_add (color_scale Float s c1) (color_scale Float t c1) /\
  each (fun x y => y = s * x) c1 (color_scale Float s c1).
Proof. exact arithmetic_assembled. Qed.
Print Assumptions C114_arithmetic_partial.
Example C114_arithmetic_case : color_scale Float 2 (C4 1 2 3 4) = C4 (2 * 1) (2 * 2) (2 * 3) (2 * 4). Proof. reflexivity. Qed.

(** 1.0 * c is not c: with a double factor, alpha becomes the (scaled) blue channel *)
Theorem C114_double_factor_refuted : (exists c, color_scale Double 1 c <> c) /\
  forall s c, let c' := color_scale Double s c in c_r c' = s * c_r c /\ c_g c' = s * c_g c /\ c_b c' = s * c_b c /\ c_a c' = s * c_b c.
Proof. split; [exact scale_double|]. intros s c. repeat split. Qed.
Print Assumptions C114_double_factor_refuted.

(** ** C116 gradients *)
Theorem C116_gradient : forall stops v, NoDup (map fst stops) ->
  (color_gradient stops v = Throw <-> stops = []) /\
  (forall c, In (v, c) stops -> color_gradient stops v = Ok c) /\
  (forall x c, first_stop stops x -> In (x, c) stops -> v <= x -> color_gradient stops v = Ok c) /\
  (forall x c, last_stop stops x -> In (x, c) stops -> x <= v -> color_gradient stops v = Ok c) /\
  (forall x1 c1 x2 c2, next_stop stops x1 x2 -> In (x1, c1) stops -> In (x2, c2) stops -> x1 <= v <= x2 ->
    exists c, color_gradient stops v = Ok c /\ mixed c1 c2 ((v - x1) / (x2 - x1)) c).
Proof. exact gradient_assembled. Qed.
Print Assumptions C116_gradient.
Example C116_gradient_case : let stops := [(3, C4 1 1 1 1); (1, C4 0 0 0 1)] in NoDup (map fst stops) /\ next_stop stops 1 3 /\ exists c, color_gradient stops 2 = Ok c /\ c_r c = 1 / 2.
Proof.
  cbv zeta. assert (ND : NoDup (map fst [(3, C4 1 1 1 1); (1, C4 0 0 0 1)])) by (cbn; repeat constructor; cbn; [intros [E|[]]; lra|intros []]).
  assert (NS : next_stop [(3, C4 1 1 1 1); (1, C4 0 0 0 1)] 1 3) by (split; [lra|]; split; [cbn; tauto|]; split; [cbn; tauto|]; cbn; intros x [<-|[<-|[]]]; lra).
  split; [exact ND|]. split; [exact NS|]. destruct (C116_gradient _ 2 ND) as (_ & _ & _ & _ & B).
  destruct (B 1 (C4 0 0 0 1) 3 (C4 1 1 1 1) NS) as (c & E & M); [cbn; tauto|cbn; tauto|lra|]. exists c. split; [exact E|]. destruct M as [M _]. rewrite M. cbn. field.
Qed.

(** ** C117 brightness and distinct colours *)
Theorem C117_brightness : forall c, is_brightness c (perceived_brightness c) /\ (unit_channels c -> 0 <= perceived_brightness c <= 1) /\ forall v, 0 <= v -> perceived_brightness (color_white v) = v.
Proof. exact brightness_assembled. Qed.
Print Assumptions C117_brightness.
Example C117_brightness_case : perceived_brightness (color_white 2) = 2. Proof. apply (C117_brightness (color_white 2)). lra. Qed.

Theorem C117_unique_color : forall i b, 0 < b <= 1 -> exists c hue sat v y,
  make_unique_color i b = Ok c /\ unit_channels c /\ is_hsv c hue sat v /\ 0 <= hue < 360 /\ 0 < sat <= 1 /\ 0 < v <= 1 /\
  is_brightness c y /\ y <= b /\ (y = b \/ v = 1).
Proof. exact unique_color_assembled. Qed.
Print Assumptions C117_unique_color.
Example C117_unique_color_case : exists c, make_unique_color 100 (6 / 10) = Ok c /\ unit_channels c.
Proof. destruct (C117_unique_color 100 (6 / 10) ltac:(lra)) as (c & _ & _ & _ & _ & E & U & _). eauto. Qed.

Theorem C117_distinct : forall i j b b', (i <> j)%nat -> 0 < b <= 1 -> 0 < b' <= 1 -> make_unique_color i b <> make_unique_color j b'.
Proof. exact unique_color_distinct. Qed.
Print Assumptions C117_distinct.
Example C117_distinct_case : make_unique_color 3 (6 / 10) <> make_unique_color 15 (6 / 10). Proof. apply C117_distinct; [lia|lra|lra]. Qed.
Close Scope R_scope.

(** ** C115 reading colours; stof, from_str and the divisions are any functions *)
Theorem C115_hex_text : forall T stof div255 div100 (one : T) hsv hex_rgb hex_rgba p ds n c, hex_prefix p -> ds <> [] -> (length ds <= 8)%nat -> hex_number 0 ds = Some n ->
  color_from_text stof div255 div100 one hsv hex_rgb hex_rgba (p ++ ds) c = Ok (if (length ds =? 8)%nat then hex_rgba n else hex_rgb n, true).
Proof. exact (fun T stof => @text_hex T stof stof). Qed.
Print Assumptions C115_hex_text.
Example C115_hex_text_case : hex_number 0 (lit "fFa07e") = Some 0xffa07e%N /\ hex_prefix (lit "0x"). Proof. split; [reflexivity|right; left; reflexivity]. Qed.

(** text that starts neither with rgb, hsv, a hexadecimal digit, white space nor a sign is refused and the colour stays as it is *)
Theorem C115_text_refused : forall T stof div255 div100 (one : T) hsv hex_rgb hex_rgba s c, ascii_text s ->
  (forall r, lower_case s <> lit "rgb" ++ r) -> (forall r, lower_case s <> lit "hsv" ++ r) ->
  (forall x r, s = x :: r -> hex_value x = None /\ isspace x = false /\ x <> "+"%char /\ x <> "-"%char) ->
  color_from_text stof div255 div100 one hsv hex_rgb hex_rgba s c = Ok (c, false).
Proof. exact (fun T stof => @text_refused T stof). Qed.
Print Assumptions C115_text_refused.
Example C115_text_refused_case : forall x r, lit "green" = x :: r -> hex_value x = None /\ isspace x = false /\ x <> "+"%char /\ x <> "-"%char.
Proof. intros x r [= <- <-]. repeat split; discriminate. Qed.

Theorem C115_words : forall T stof div255 div100 (one : T) hsv hex_rgb hex_rgba s c c' k, ascii_text s -> (k = lit "rgb" \/ k = lit "hsv") -> (exists r, lower_case s = k ++ r) ->
  let read := color_from_text stof div255 div100 one hsv hex_rgb hex_rgba s c in
  (read = Ok (c', true) <-> exists w a b d x y z, pieces (one_of seps) (lower_case s) [w; a; b; d] /\ stof a = Some x /\ stof b = Some y /\ stof d = Some z /\
    c' = if str_eqb k (lit "rgb") then C4 (div255 x) (div255 y) (div255 z) one else hsv x (div100 y) (div100 z)) /\
  ((exists c'', read = Ok (c'', true)) \/ read = Ok (c, false)).
Proof. exact (fun T stof d1 d2 one h h1 h2 s c c' k A K E => conj (proj1 (text_words stof d1 d2 one h h1 h2 s c c' k A K E)) (text_total stof d1 d2 one h h1 h2 s c A)). Qed.
Print Assumptions C115_words.
Example C115_words_case : color_from_text (fun s => Some (length s)) (fun x => x) (fun x => x) 9 (fun a b c => C4 a b c 0) (fun _ => C4 0 0 0 0) (fun _ => C4 0 0 0 0) (lit "RGB( 1, 22, 333 )") (C4 0 0 0 0) = Ok (C4 1 2 3 9, true).
Proof. vm_compute. reflexivity. Qed.

Theorem C115_hsv_group : forall T stof from_str div255 div100 (zero one : T) hsv hex_rgb hex_rgba t c c', pn_value t = [] -> (In (lit "h") (pn_keys t) \/ In (lit "s") (pn_keys t) \/ In (lit "v") (pn_keys t)) ->
  let read := color_from_pn stof from_str div255 div100 zero one hsv hex_rgb hex_rgba t c in
  (read = Ok (c', true) <-> exists h s v, num_or from_str t (lit "h") zero h /\ num_or from_str t (lit "s") one s /\ num_or from_str t (lit "v") one v /\ c' = hsv h s v) /\
  ((exists c'', read = Ok (c'', true)) \/ read = Ok (c, false)).
Proof. exact @tree_hsv. Qed.
Print Assumptions C115_hsv_group.
Example C115_hsv_group_case : color_from_pn (fun _ => None) (fun s => Some (length s)) (fun x => x) (fun x => x) 0 1 (fun a b c => C4 a b c 9) (fun _ => C4 0 0 0 0) (fun _ => C4 0 0 0 0)
  (PN [] [(lit "v", PN (lit "12") [] false); (lit "h", PN (lit "120") [] false)] false) (C4 0 0 0 0) = Ok (C4 3 1 2 9, true).
Proof. vm_compute. reflexivity. Qed.

Theorem C115_list_partial : forall T stof from_str div255 div100 (zero one : T) hsv hex_rgb hex_rgba t c c', pn_value t = [] -> ~ In (lit "h") (pn_keys t) -> ~ In (lit "s") (pn_keys t) -> ~ In (lit "v") (pn_keys t) ->
  let read := color_from_pn stof from_str div255 div100 zero one hsv hex_rgb hex_rgba t c in
  (read = Ok (c', true) <->
    (3 <= length (pn_children t))%nat /\ named_or_at from_str t (lit "r") 0 (c_r c') /\ named_or_at from_str t (lit "g") 1 (c_g c') /\ named_or_at from_str t (lit "b") 2 (c_b c') /\
    (if (4 <=? length (pn_children t))%nat then named_or_at from_str t (lit "a") 3 (c_a c') else c_a c' = c_a c)) /\
  (exists c'' r, read = Ok (c'', r)).
Proof. exact @tree_list. Qed.
Print Assumptions C115_list_partial.
Example C115_list_case : color_from_pn (fun _ => None) (fun s => Some (length s)) (fun x => x) (fun x => x) 0 1 (fun a b c => C4 a b c 9) (fun _ => C4 0 0 0 0) (fun _ => C4 0 0 0 0)
  (PN [] [(lit "b", PN (lit "1") [] false); (lit "g", PN (lit "22") [] false); (lit "r", PN (lit "333") [] false)] false) (C4 7 7 7 7) = Ok (C4 3 2 1 7, true).
Proof. vm_compute. reflexivity. Qed.

(** a failed reading of a list can leave the colour partly changed *)
Theorem C115_failure_unchanged_refuted : exists (stof from_str : str -> option Z) div255 div100 zero one hsv hex_rgb hex_rgba t c c',
  color_from_pn stof from_str div255 div100 zero one hsv hex_rgb hex_rgba t c = Ok (c', false) /\ c' <> c.
Proof. exact partly_changed. Qed.
Print Assumptions C115_failure_unchanged_refuted.
