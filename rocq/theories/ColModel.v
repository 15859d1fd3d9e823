(** Models of /repo/xo/utility/color.h, color.cpp and color_gradient.h, and of numerical/math.h 77-78 and 119-125.
    Hexadecimal conversions use IEEE binary32 floats (Flocq's [binary_float 24 128], round to nearest even); hue and arithmetic functions use real numbers; comparisons and the reading of trees take the channel type as a parameter. *)
From Coq Require Import Ascii String List Arith Bool NArith ZArith Reals Lra.
From Flocq Require Import Core IEEE754.BinarySingleNaN.
From Verif Require Import Base Str StrModel CastModel PnSpec PnModel FlatModel NumModel GpnModel ColSpec.
Import ListNotations.

(** ** binary32 *)
Definition prec32 : Prec_gt_0 24 := eq_refl.
Definition emax32 : Prec_lt_emax 24 128 := eq_refl.
Definition f32 : Type := binary_float 24 128.
Definition f32_of_Z (z : Z) : f32 := binary_normalize 24 128 prec32 emax32 mode_NE z 0 false.
Definition f32_mul (a b : f32) : f32 := @Bmult 24 128 prec32 emax32 mode_NE a b.
Definition f32_div (a b : f32) : f32 := @Bdiv 24 128 prec32 emax32 mode_NE a b.
(** std::round: to nearest, halves away from zero *)
Definition f32_round (a : f32) : f32 := @Bnearbyint 24 128 emax32 mode_NA a.
(** math.h 86-93 *)
Definition f32_clamped (v lower upper : f32) : f32 := if Bltb v lower then lower else if Bltb upper v then upper else v.
(** math.h 78 for uint32: the cast is undefined for NaN and for values out of range *)
Definition round_cast_u32 (v : f32) : outcome N :=
  let r := f32_round v in
  if is_finite r then (if ((0 <=? Btrunc r) && (Btrunc r <? 2 ^ 32))%Z then Ok (Z.to_N (Btrunc r)) else UB) else UB.
(** math.h 119-121 *)
Definition float_to_byte (v : f32) : outcome N := round_cast_u32 (f32_mul (f32_clamped v (f32_of_Z 0) (f32_of_Z 1)) (f32_of_Z 255)).
(** math.h 123-125 *)
Definition get_byte (x : N) (start : N) : N := N.land (N.shiftr x start) 255.
(** color.cpp 97-101 and 103-107 *)
Definition inv255 : f32 := f32_div (f32_of_Z 1) (f32_of_Z 255).
Definition hex_channel (x start : N) : f32 := f32_mul inv255 (f32_of_Z (Z.of_N (get_byte x start))).
Definition color_from_hex_rgb (x : N) : rgba f32 := C4 (hex_channel x 16) (hex_channel x 8) (hex_channel x 0) (f32_of_Z 1).
Definition color_from_hex_rgba (x : N) : rgba f32 := C4 (hex_channel x 24) (hex_channel x 16) (hex_channel x 8) (hex_channel x 0).
(** uint32 shift *)
Definition shl32 (x n : N) : N := (N.shiftl x n mod 2 ^ 32)%N.
(** color.cpp 109-112 and 114-117 *)
Definition hex_rgb_from_color (c : rgba f32) : outcome N :=
  do r <- float_to_byte (c_r c); do g <- float_to_byte (c_g c); do b <- float_to_byte (c_b c);
  Ok (N.lor (N.lor (shl32 r 16) (shl32 g 8)) b).
Definition hex_rgba_from_color (c : rgba f32) : outcome N :=
  do r <- float_to_byte (c_r c); do g <- float_to_byte (c_g c); do b <- float_to_byte (c_b c); do a <- float_to_byte (c_a c);
  Ok (N.lor (N.lor (N.lor (shl32 r 24) (shl32 g 16)) (shl32 b 8)) a).

(** ** comparison *)
Section Compare.
  Context {T : Type} (ltb eqb : T -> T -> bool).
  (** color.h 35-36 *)
  Definition color_eq (a b : rgba T) : bool := eqb (c_r a) (c_r b) && eqb (c_g a) (c_g b) && eqb (c_b a) (c_b b) && eqb (c_a a) (c_a b).
  Definition color_ne (a b : rgba T) : bool := negb (color_eq a b).
  (** color.cpp 119-131 *)
  Definition color_less (a b : rgba T) : bool :=
    if eqb (c_r a) (c_r b) then
      if eqb (c_g a) (c_g b) then
        if eqb (c_b a) (c_b b) then ltb (c_a a) (c_a b)
        else ltb (c_b a) (c_b b)
      else ltb (c_g a) (c_g b)
    else ltb (c_r a) (c_r b).
  (** math.h 86-88 and color.h 39-40 *)
  Definition clamp_channel (l u v : T) : T := if ltb v l then l else if ltb u v then u else v.
  Definition color_clamp (c : rgba T) (l u : T) : rgba T :=
    C4 (clamp_channel l u (c_r c)) (clamp_channel l u (c_g c)) (clamp_channel l u (c_b c)) (clamp_channel l u (c_a c)).
End Compare.

(** ** arithmetic over the reals *)
Local Open Scope R_scope.
(** color.h 11: [pa] is 1 by default *)
Definition color_f (r g b a : R) : rgba R := C4 r g b a.
(** color.h 12: the constructor from doubles initialises a with pb *)
Definition color_d (r g b a : R) : rgba R := C4 r g b b.
(** color.h 16-23 *)
Definition color_red (br sat : R) : rgba R := color_f br (br * (1 - sat)) (br * (1 - sat)) 1.
Definition color_orange (br sat : R) : rgba R := color_f br (0.5 * br + 0.5 * br * (1 - sat)) (br * (1 - sat)) 1.
Definition color_yellow (br sat : R) : rgba R := color_f br br (br * (1 - sat)) 1.
Definition color_green (br sat : R) : rgba R := color_f (br * (1 - sat)) br (br * (1 - sat)) 1.
Definition color_cyan (br sat : R) : rgba R := color_f (br * (1 - sat)) br br 1.
Definition color_blue (br sat : R) : rgba R := color_f (br * (1 - sat)) (br * (1 - sat)) br 1.
Definition color_magenta (br sat : R) : rgba R := color_f br (br * (1 - sat)) br 1.
Definition color_white (br : R) : rgba R := color_f br br br 1.
(** color.h 29-30: the products are floats or doubles, which selects the constructor *)
Inductive scalar_type := Float | Double.
Definition color_scale (ty : scalar_type) (s : R) (c : rgba R) : rgba R :=
  match ty with
  | Float => color_f (s * c_r c) (s * c_g c) (s * c_b c) (s * c_a c)
  | Double => color_d (s * c_r c) (s * c_g c) (s * c_b c) (s * c_a c)
  end.
(** color.h 32-33 *)
Definition color_add (a b : rgba R) : rgba R := color_f (c_r a + c_r b) (c_g a + c_g b) (c_b a + c_b b) (c_a a + c_a b).
Definition color_sub (a b : rgba R) : rgba R := color_f (c_r a - c_r b) (c_g a - c_g b) (c_b a - c_b b) (c_a a - c_a b).

(** color.cpp 63-85; the last colour is made from doubles *)
Definition color_from_hsv (H0 S V : R) : rgba R :=
  let H := fmod H0 360 / 60 in
  let fract := H - floor_R H in
  let P := V * (1 - S) in
  let Q := V * (1 - S * fract) in
  let T := V * (1 - S * (1 - fract)) in
  if Rleb 0 H && Rltb H 1 then color_f V T P 1
  else if Rleb 1 H && Rltb H 2 then color_f Q V P 1
  else if Rleb 2 H && Rltb H 3 then color_f P V T 1
  else if Rleb 3 H && Rltb H 4 then color_f P Q V 1
  else if Rleb 4 H && Rltb H 5 then color_f T P V 1
  else if Rleb 5 H && Rltb H 6 then color_f V P Q 1
  else color_d 0 0 0 1.

(** color.cpp 133-137 *)
Definition perceived_brightness (c : rgba R) : R :=
  sqrt (0.299 * c_r c * c_r c + 0.587 * c_g c * c_g c + 0.114 * c_b c * c_b c).

(** color.cpp 87-95; idx / standard_hue.size() is an integer division *)
Definition standard_hue : list R := [0; 120; 240; 45; 195; 310; 20; 75; 165; 215; 275; 330].
Definition make_unique_color (idx : nat) (brightness : R) : outcome (rgba R) :=
  do hue <- vec_get standard_hue (Nat.modulo idx (length standard_hue));
  let sat := 1 / (1 + INR (Nat.div idx (length standard_hue))) in
  let pbr := perceived_brightness (color_from_hsv hue sat 1) in
  let val := clamp_channel Rltb brightness 1 (brightness / pbr) in
  Ok (color_from_hsv hue sat val).

(** color_gradient.h 13-15 with interpolation.h 9-11 and 18-35 for float keys and colours *)
Definition lerp_color (c1 c2 : rgba R) (t : R) : rgba R := color_add c1 (color_scale Float t (color_sub c2 c1)).
Definition gradient_at (m : list (R * rgba R)) (v : R) : outcome (rgba R) :=
  match m with
  | [] => Throw
  | _ =>
    let ub := fm_upper_bound Rltb m v in
    if (ub =? length m)%nat then do e <- vec_get m (ub - 1); Ok (snd e)
    else if (ub =? 0)%nat then do e <- vec_get m ub; Ok (snd e)
    else do lo <- vec_get m (ub - 1); do hi <- vec_get m ub;
         let t := (v - fst lo) / (fst hi - fst lo) in Ok (lerp_color (snd lo) (snd hi) t)
  end.
Definition color_gradient (stops : list (R * rgba R)) (v : R) : outcome (rgba R) := gradient_at (fm_of_list Rltb stops) v.
Close Scope R_scope.

(** ** reading from a tree *)
(** string_tools.cpp 186-191: std::tolower of a negative char other than EOF (-1) is undefined *)
Definition tolower (c : ascii) : outcome ascii :=
  let n := N_of_ascii c in
  if ((65 <=? n) && (n <=? 90))%N then Ok (ascii_of_N (n + 32))
  else if (n <? 128)%N || (n =? 255)%N then Ok c else UB.
Fixpoint to_lower (s : str) : outcome str :=
  match s with [] => Ok [] | c :: r => do c' <- tolower c; do r' <- to_lower r; Ok (c' :: r') end.

(** strtoul with base 16: the longest sequence of hexadecimal digits *)
Fixpoint scan_hex (acc : N) (s : str) : N :=
  match s with
  | [] => acc
  | c :: r => match hex_value c with Some d => scan_hex (16 * acc + d)%N r | None => acc end
  end.
Definition starts_hex (s : str) : bool := match s with c :: _ => match hex_value c with Some _ => true | None => false end | [] => false end.
(** std::stoul( s, 0, 16 ): None when it throws *)
Definition stoul16 (s : str) : option N :=
  let (neg, r) := scan_sign (skip_space (c_str s)) in
  let digits := if str_begins_with r (lit "0x") && starts_hex (skipn 2 r) then skipn 2 r
                else if str_begins_with r (lit "0X") && starts_hex (skipn 2 r) then skipn 2 r else r in
  if starts_hex digits then
    let n := scan_hex 0 digits in
    if (n <? 2 ^ 64)%N then Some (if neg then ((2 ^ 64 - n) mod 2 ^ 64)%N else n) else None
  else None.

Section FromTree.
  (** channel type; std::stof (None when it throws); from_str; division by 255 and 100; the constructors above *)
  Context {T : Type} (stof : str -> option T) (from_str : str -> option T) (div255 div100 : T -> T) (zero one : T).
  Context (hsv : T -> T -> T -> rgba T) (hex_rgb hex_rgba : N -> rgba T).
  (** color.cpp 13-61: returns the colour afterwards and the result. Exceptions are caught (60), keeping what was assigned. *)
  Definition of_opt {A} (o : option A) : outcome A := match o with Some a => Ok a | None => Throw end.
  Definition get_num (t : pn) (k : string) (def : T) : outcome T := get_as_def (num_from_pn from_str) t (lit k) def.
  Definition get_num_at (t : pn) (i : nat) : outcome T := get_as_idx (num_from_pn from_str) t i.
  Definition caught (c : rgba T) (o : outcome (rgba T * bool)) : outcome (rgba T * bool) := match o with Throw => Ok (c, false) | _ => o end.
  (** color.cpp 17-47 *)
  Definition color_from_text (s : str) (c : rgba T) : outcome (rgba T * bool) :=
    caught c (
      do st <- to_lower s;
      let has_rgb := str_begins_with st (lit "rgb") in
      let has_hsv := str_begins_with st (lit "hsv") in
      if has_rgb || has_hsv then
        do v <- split_str st (lit ",; ()");
        match v with
        | [_; a; b; d] =>
          if has_rgb then
            do x <- of_opt (stof a); do y <- of_opt (stof b); do z <- of_opt (stof d); Ok (C4 (div255 x) (div255 y) (div255 z) one, true)
          else if has_hsv then
            do x <- of_opt (stof a); do y <- of_opt (stof b); do z <- of_opt (stof d); Ok (hsv x (div100 y) (div100 z), true)
          else Ok (c, false)
        | _ => Ok (c, false)
        end
      else
        let has_0x := str_begins_with st (lit "0x") in
        let num_digits := if has_0x then length st - 2 else length st in
        do value <- of_opt (stoul16 st);
        let value := (value mod 2 ^ 32)%N in
        Ok (if num_digits =? 8 then hex_rgba value else hex_rgb value, true)).
  (** color.cpp 48-61 *)
  Definition color_from_pn (t : pn) (c : rgba T) : outcome (rgba T * bool) :=
    if has_value t then color_from_text (pn_value t) c
    else if has_key t (lit "h") || has_key t (lit "s") || has_key t (lit "v") then
      caught c (do h <- get_num t "h" zero; do s <- get_num t "s" one; do v <- get_num t "v" one; Ok (hsv h s v, true))
    else if 3 <=? pn_size t then
      caught c (
        do r0 <- get_num_at t 0; do r <- get_num t "r" r0;
        let c := C4 r (c_g c) (c_b c) (c_a c) in
        caught c (
          do g0 <- get_num_at t 1; do g <- get_num t "g" g0;
          let c := C4 r g (c_b c) (c_a c) in
          caught c (
            do b0 <- get_num_at t 2; do b <- get_num t "b" b0;
            let c := C4 r g b (c_a c) in
            if 4 <=? pn_size t then
              caught c (do a0 <- get_num_at t 3; do a <- get_num t "a" a0; Ok (C4 r g b a, true))
            else Ok (c, true))))
    else Ok (c, false).
End FromTree.
