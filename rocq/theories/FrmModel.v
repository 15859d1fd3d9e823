(** Model of the search for a frame and of values at positions between samples, for T = float and T = double:
    /repo/xo/container/storage.h 117-124, /repo/xo/container/storage_tools.h 24-49 and /repo/xo/numerical/interpolation.h 37-57, and of the waves in /repo/xo/numerical/math.h. *)
From Coq Require Import List Arith Bool ZArith.
From Flocq Require Import Core IEEE754.BinarySingleNaN.
From Verif Require Import Base GridModel DblModel.
Import ListNotations.
Local Open Scope nat_scope.

Section Numbers.
  Context (prec emax : Z) (Hp : Prec_gt_0 prec) (He : Prec_lt_emax prec emax) {L : Type}.
  Notation num := (binary_float prec emax).
  Notation storage := (sto num L).

  (** std::floor in the type of its argument *)
  Definition floor (x : num) : num := @Bnearbyint prec emax He mode_DN x.
  (** the conversion of a number to an integer type with values from [lo] to [hi]: towards zero, undefined when it does not fit, is infinite or NaN *)
  Definition cast (lo hi : Z) (x : num) : outcome Z :=
    if is_finite x && (lo <=? Btrunc x)%Z && (Btrunc x <=? hi)%Z then Ok (Btrunc x) else UB.

  (** storage_tools.h 33-41, the loop; [fuel] is the number of frames *)
  Fixpoint frame_search (s : storage) (val : num) (ch : nat) (fuel first count : nat) : outcome nat :=
    if count =? 0 then Ok first
    else
      match fuel with
      | O => UB
      | S fuel =>
        let step := Nat.div2 count in
        let idx := first + step in
        do x <- st_get s idx ch;
        if lt prec emax x val then frame_search s val ch fuel (idx + 1) (count - (step + 1))
        else frame_search s val ch fuel first step
      end.
  (** storage_tools.h 24-49; [None] is no_index. storage.h 99: a storage without samples is empty *)
  Definition find_frame (s : storage) (val : num) (ch : nat) : outcome (option nat) :=
    match st_data s with
    | [] => Ok None
    | _ =>
      do lb <- frame_search s val ch (st_frames s) 0 (st_frames s);
      let first := Nat.min lb (st_frames s - 1) in
      if 1 <? first then
        do p <- st_get s (first - 1) ch;
        do q <- st_get s first ch;
        if lt prec emax (sub prec emax Hp He val p) (sub prec emax Hp He q val) then Ok (Some (first - 1)) else Ok (Some first)
      else Ok (Some first)
    end.

  (** storage.h 117-124; index_t is a 64-bit unsigned number and adding 1 to it wraps *)
  Definition interpolated_value (s : storage) (frame_idx : num) (channel : nat) : outcome num :=
    let frame_f := floor frame_idx in
    let w := sub prec emax Hp He frame_idx frame_f in
    do frame0 <- cast 0 (2 ^ 64 - 1) frame_f;
    if ((frame0 + 1) mod 2 ^ 64 <? Z.of_nat (st_frames s))%Z then
      let ofs := Z.to_nat frame0 * st_channels s + channel in
      do a <- vec_get (st_data s) ofs;
      do b <- vec_get (st_data s) (ofs + st_channels s);
      Ok (add prec emax Hp He (mul prec emax Hp He (sub prec emax Hp He (const prec emax Hp He 1 0) w) a) (mul prec emax Hp He w b))
    else Throw.

  (** interpolation.h 37-52 and 54-57: adding 1 to the largest int is undefined *)
  Definition lerp_span (xs : list num) (index : num) : outcome num :=
    match xs with
    | [] => Throw
    | x0 :: _ =>
      if le prec emax index (const prec emax Hp He 0 0) then Ok x0
      else
        let index_floor := floor index in
        do index_lb <- cast (- 2 ^ 31) (2 ^ 31 - 1) index_floor;
        if (index_lb =? 2 ^ 31 - 1)%Z then UB
        else if (Z.of_nat (length xs) <=? index_lb + 1)%Z then vec_get xs (length xs - 1)
        else if (index_lb <? 0)%Z then UB
        else
          do a <- vec_get xs (Z.to_nat index_lb);
          do b <- vec_get xs (Z.to_nat index_lb + 1);
          Ok (lerp prec emax Hp He a b (sub prec emax Hp He index index_floor))
    end.

  (** math.h 71; infinity equals itself *)
  Definition is_whole (v : num) : bool := Beqb (floor v) v.
  (** math.h 141-143 *)
  Definition square_wave (v : num) : num :=
    if lt prec emax (fmod prec emax Hp He v (const prec emax Hp He 2 0)) (const prec emax Hp He 1 0) then const prec emax Hp He 1 0 else const prec emax Hp He 0 0.
  (** math.h 146-148 *)
  Definition triangle_wave (v : num) : num :=
    let h := mul prec emax Hp He (const prec emax Hp He 1 (-1)) v in
    mul prec emax Hp He (const prec emax Hp He 2 0) (Babs (sub prec emax Hp He h (floor (add prec emax Hp He h (const prec emax Hp He 1 (-1)))))).
End Numbers.
