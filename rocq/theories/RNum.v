(** Instance of [Num] over Coq's real numbers: the model without rounding.

    [nmax_value]/[nmin_value] are those of f64 (real.rs:35-42 for f64); [nto_usize] truncates
    towards zero and fails outside of the 64-bit range; [natan2] is the usual principal value in (-pi, pi]
    (f64 distinguishes signed zeros, reals do not); [nacos] outside [-1,1] (NaN in f64) is
    whatever the standard library's [acos] gives. *)
From Coq Require Import Reals ZArith Bool Lra.
From Verif Require Import Num.
Local Open Scope R_scope.

Definition rltb (a b : R) : bool := if Rlt_dec a b then true else false.
Definition rleb (a b : R) : bool := if Rle_dec a b then true else false.
Definition reqb (a b : R) : bool := if Req_EM_T a b then true else false.

Definition ratan2 (y x : R) : R :=
  if Rlt_dec 0 x then atan (y / x)
  else if Rlt_dec x 0 then
    if Rle_dec 0 y then atan (y / x) + PI else atan (y / x) - PI
  else if Rlt_dec 0 y then PI / 2
  else if Rlt_dec y 0 then - (PI / 2)
  else 0.

Definition rfloor (x : R) : R := IZR (Int_part x).
Definition rceil (x : R) : R := - rfloor (- x).

Definition rto_usize (x : R) : option nat :=
  if Rlt_dec (-1) x then
    if Rlt_dec x (IZR (2 ^ 64)) then Some (Z.to_nat (Int_part x)) else None
  else None.

Definition rtotal_cmp (a b : R) : comparison :=
  if Rlt_dec a b then Lt else if Rlt_dec b a then Gt else Eq.

Global Instance RNum : Num R := {|
  nzero := 0;
  none_ := 1;
  ntwo := 2;
  nfour := 4;
  npi := PI;
  ntau := 2 * PI;
  nmax_value := IZR (2 ^ 1024 - 2 ^ 971);
  nmin_value := IZR (- (2 ^ 1024 - 2 ^ 971));
  nfuzzy_epsilon := 1 / 100000000;
  nlit := fun m k => IZR m / IZR (10 ^ k);
  nof_nat := INR;
  nto_usize := rto_usize;
  nadd := Rplus;
  nsub := Rminus;
  nmul := Rmult;
  ndiv := Rdiv;
  nneg := Ropp;
  nabs := Rabs;
  nsqrt := sqrt;
  nfloor := rfloor;
  nceil := rceil;
  nsin := sin;
  ncos := cos;
  ntan := tan;
  natan := atan;
  nacos := acos;
  natan2 := ratan2;
  nltb := rltb;
  nleb := rleb;
  neqb := reqb;
  nmin := Rmin;
  nmax := Rmax;
  ntotal_cmp := rtotal_cmp
|}.
