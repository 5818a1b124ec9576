(** Numeric interface.

    The Rust code is generic over [T: Real]
    (/repo/cavalier_contours/src/core/traits/real.rs:5-43). [Num T] has one field for each
    operation of [Real] (or its super traits) used by the modelled code. No laws are
    assumed: theorems over an arbitrary [Num T] hold for f32 and f64 with NaN, infinities and
    rounding. *)
From Coq Require Import ZArith Bool.

Class Num (T : Type) := {
  nzero : T;                        (* num_traits::Zero::zero *)
  none_ : T;                        (* num_traits::One::one *)
  ntwo : T;                         (* Real::two, real.rs:25-27 *)
  nfour : T;                        (* Real::four, real.rs:30-32 *)
  npi : T;                          (* Real::pi, real.rs:15-17 *)
  ntau : T;                         (* Real::tau, real.rs:20-22 *)
  nmax_value : T;                   (* Real::max_value, real.rs:40-42 *)
  nmin_value : T;                   (* Real::min_value, real.rs:35-37 *)
  nfuzzy_epsilon : T;               (* FuzzyEq::fuzzy_epsilon = 1e-8, fuzzy_eq.rs:27-29,42-43 *)
  nlit : Z -> Z -> T;               (* T::from(literal): [nlit m k] is m / 10^k for k >= 0 *)
  nof_nat : nat -> T;               (* T::from(usize) *)
  nto_usize : T -> option nat;      (* ToPrimitive::to_usize *)
  nadd : T -> T -> T;
  nsub : T -> T -> T;
  nmul : T -> T -> T;
  ndiv : T -> T -> T;
  nneg : T -> T;
  nabs : T -> T;
  nsqrt : T -> T;
  nfloor : T -> T;
  nceil : T -> T;
  nsin : T -> T;
  ncos : T -> T;
  ntan : T -> T;
  natan : T -> T;
  nacos : T -> T;
  natan2 : T -> T -> T;             (* [natan2 y x] = y.atan2(x) *)
  nltb : T -> T -> bool;            (* PartialOrd::lt *)
  nleb : T -> T -> bool;            (* PartialOrd::le *)
  neqb : T -> T -> bool;            (* PartialEq::eq *)
  nmin : T -> T -> T;               (* num_traits::real::Real::min *)
  nmax : T -> T -> T;               (* num_traits::real::Real::max *)
  ntotal_cmp : T -> T -> comparison (* IndexableNum::total_cmp *)
}.

Declare Scope num_scope.
Delimit Scope num_scope with num.
Notation "x + y" := (nadd x y) : num_scope.
Notation "x - y" := (nsub x y) : num_scope.
Notation "x * y" := (nmul x y) : num_scope.
Notation "x / y" := (ndiv x y) : num_scope.
Notation "- x" := (nneg x) : num_scope.
Notation "x <? y" := (nltb x y) : num_scope.
Notation "x <=? y" := (nleb x y) : num_scope.
Notation "x >? y" := (nltb y x) (only parsing) : num_scope.
Notation "x >=? y" := (nleb y x) (only parsing) : num_scope.
