(** The real numbers that floating-point patterns stand for. *)
From Coq Require Import Reals Floats.SpecFloat.
From Flocq Require Import Core BinarySingleNaN.
From Verif Require Import Base ModelFloat.

(** The number a pattern stands for, when it stands for one *)
Definition real (f : fmt) (x : N) : R := SF2R radix2 (fdec f x).
Definition finite (f : fmt) (x : N) : Prop := is_finite_SF (fdec f x) = true.
(** Rounding to the nearest number of the format, ties to even (IEEE 754) *)
Definition RN (f : fmt) (r : R) : R := round radix2 (FLT_exp (f_emin f) (f_prec f)) ZnearestE r.
(** Below the numbers that overflow *)
Definition in_range (f : fmt) (r : R) : Prop := (Rabs r < bpow radix2 (f_emax f))%R.
