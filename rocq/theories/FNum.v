(** Binary64 instance of [Num], for running the model on concrete inputs.

    [+ - * / sqrt abs neg < <= ==] are Coq's primitive floats, i.e. IEEE 754 binary64 bit exact as in
    Rust's f64. [floor], [ceil] and [to_usize] are exact for |x| < 2^52 (and identity above). The
    trigonometric functions are approximations (Taylor series / argument reduction), accurate to about
    1e-15 relative: they are not bit exact with libm, so no theorem about f64 rests on them; they are
    only used in fidelity tests. *)
From Coq Require Import ZArith Bool List Floats Uint63.
From Verif Require Import Num.
Local Open Scope float_scope.

Definition fof_Z (z : Z) : float :=
  match z with
  | Z0 => 0
  | Zpos _ => of_uint63 (Uint63.of_Z z)
  | Zneg p => - (of_uint63 (Uint63.of_Z (Zpos p)))
  end.

Fixpoint fpow10 (k : nat) : float := match k with O => 1 | S k => 10 * fpow10 k end.

(** m / 10^k, correctly rounded for |m| < 2^53 and k <= 22 *)
Definition flit (m k : Z) : float := fof_Z m / fpow10 (Z.to_nat k).

Definition ftwo52 : float := 0x1p52.

(** round to nearest integer by adding and subtracting 2^52, exact for 0 <= x < 2^52 *)
Definition fround_pos (x : float) : float := (x + ftwo52) - ftwo52.
Definition ffloor_pos (x : float) : float :=
  let r := fround_pos x in if r <=? x then r else r - 1.
Definition fceil_pos (x : float) : float :=
  let r := fround_pos x in if x <=? r then r else r + 1.
Definition ffloor (x : float) : float :=
  if PrimFloat.abs x <? ftwo52 then (if x <? 0 then - fceil_pos (- x) else ffloor_pos x) else x.
Definition fceil (x : float) : float :=
  if PrimFloat.abs x <? ftwo52 then (if x <? 0 then - ffloor_pos (- x) else fceil_pos x) else x.

(** ToPrimitive::to_usize: truncation towards zero; None for NaN, <= -1 or too large *)
Definition fto_usize (x : float) : option nat :=
  if (PrimFloat.abs x <? ftwo52) then
    if x <=? -1 then None
    else
      let t := ffloor (PrimFloat.abs x) in
      let '(m, e) := frshiftexp t in
      Some (Z.to_nat (Uint63.to_Z (Uint63.lsr (normfr_mantissa m) (Uint63.sub 53 (Uint63.sub e 2101)))))
  else None.

Definition fpi : float := 0x1.921fb54442d18p+1.
Definition ftau : float := 0x1.921fb54442d18p+2.
Definition fhalfpi : float := 0x1.921fb54442d18p+0.

(** Taylor series of sin and cos on [-pi/4, pi/4] *)
Fixpoint ftaylor (n : nat) (k x2 : float) : float :=
  match n with
  | O => 1
  | S n => 1 - x2 / (k * (k + 1)) * ftaylor n (k + 2) x2
  end.
Definition fsin_small (x : float) : float := x * ftaylor 10 2 (x * x).
Definition fcos_small (x : float) : float := ftaylor 10 1 (x * x).

(** pi/2 split in two parts for argument reduction *)
Definition fpio2_hi : float := 0x1.921fb544p+0.
Definition fpio2_lo : float := 0x1.0b4611a626331p-34.

Definition freduce (x : float) : Z * float :=
  let k := ffloor (x / fhalfpi + 0.5) in
  let r := (x - k * fpio2_hi) - k * fpio2_lo in
  let k4 := k - 4 * ffloor (k / 4) in
  (if k4 =? 0 then 0%Z else if k4 =? 1 then 1%Z else if k4 =? 2 then 2%Z else 3%Z, r).

Definition fsin (x : float) : float :=
  let '(k, r) := freduce x in
  match k with
  | 0%Z => fsin_small r | 1%Z => fcos_small r | 2%Z => - fsin_small r | _ => - fcos_small r
  end.
Definition fcos (x : float) : float :=
  let '(k, r) := freduce x in
  match k with
  | 0%Z => fcos_small r | 1%Z => - fsin_small r | 2%Z => - fcos_small r | _ => fsin_small r
  end.
Definition ftan (x : float) : float := fsin x / fcos x.

(** atan: halve the argument twice by atan x = 2 atan (x / (1 + PrimFloat.sqrt (1 + x^2))), then series *)
Fixpoint fatan_series (n : nat) (k x2 : float) : float :=
  match n with
  | O => 1 / k
  | S n => 1 / k - x2 * fatan_series n (k + 2) x2
  end.
Definition fatan_half (x : float) : float := x / (1 + PrimFloat.sqrt (1 + x * x)).
Definition fatan_pos (x : float) : float :=
  let y := fatan_half (fatan_half (fatan_half x)) in
  8 * (y * fatan_series 12 1 (y * y)).
Definition fatan (x : float) : float :=
  if x <? 0 then (if x <? -1 then fatan_pos (1 / - x) - fhalfpi else - fatan_pos (- x))
  else if 1 <? x then fhalfpi - fatan_pos (1 / x) else fatan_pos x.

(** signed zeros are distinguished through division *)
Definition fis_neg (x : float) : bool := if x =? 0 then 1 / x <? 0 else x <? 0.
Definition fatan2 (y x : float) : float :=
  if x =? 0 then
    if y =? 0 then
      (if fis_neg x then (if fis_neg y then - fpi else fpi) else y)
    else if y <? 0 then - fhalfpi else fhalfpi
  else if 0 <? x then fatan (y / x)
  else if fis_neg y then fatan (y / x) - fpi else fatan (y / x) + fpi.

Definition facos (x : float) : float := fatan2 (PrimFloat.sqrt ((1 - x) * (1 + x))) x.

Definition fisnan (x : float) : bool := negb (x =? x).
(** f64::min / f64::max: a NaN argument is ignored *)
Definition fmin (a b : float) : float :=
  if fisnan a then b else if fisnan b then a else if b <? a then b else a.
Definition fmax (a b : float) : float :=
  if fisnan a then b else if fisnan b then a else if a <? b then b else a.

(** f64::total_cmp without NaN payload ordering: -NaN is not distinguished from NaN *)
Definition ftotal_cmp (a b : float) : comparison :=
  if fisnan a then (if fisnan b then Eq else Gt)
  else if fisnan b then Lt
  else if a <? b then Lt
  else if b <? a then Gt
  else match fis_neg a, fis_neg b with
       | true, false => Lt
       | false, true => Gt
       | _, _ => Eq
       end.

Definition fof_nat (n : nat) : float := fof_Z (Z.of_nat n).

Global Instance FNum : Num float := {|
  nzero := 0;
  none_ := 1;
  ntwo := 2;
  nfour := 4;
  npi := fpi;
  ntau := ftau;
  nmax_value := 0x1.fffffffffffffp+1023;
  nmin_value := -0x1.fffffffffffffp+1023;
  nfuzzy_epsilon := 1e-8;
  nlit := flit;
  nof_nat := fof_nat;
  nto_usize := fto_usize;
  nadd := PrimFloat.add;
  nsub := PrimFloat.sub;
  nmul := PrimFloat.mul;
  ndiv := PrimFloat.div;
  nneg := PrimFloat.opp;
  nabs := PrimFloat.abs;
  nsqrt := PrimFloat.sqrt;
  nfloor := ffloor;
  nceil := fceil;
  nsin := fsin;
  ncos := fcos;
  ntan := ftan;
  natan := fatan;
  nacos := facos;
  natan2 := fatan2;
  nltb := PrimFloat.ltb;
  nleb := PrimFloat.leb;
  neqb := PrimFloat.eqb;
  nmin := fmin;
  nmax := fmax;
  ntotal_cmp := ftotal_cmp
|}.
