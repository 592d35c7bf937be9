(** Floating point as used by src/vm/vm_exec.c.  A float or double variable is
    its bit pattern; arithmetic goes through the standard library's [SpecFloat]
    (round to nearest even).  Simplifications: every NaN produced by arithmetic
    is one canonical NaN; the compiler does not contract [a * b + c]. *)
From Coq Require Import Floats.SpecFloat.
From Verif Require Import Base.

Record fmt := { f_mw : N; f_ew : N }.
Definition F32 := {| f_mw := 23; f_ew := 8 |}.
Definition F64 := {| f_mw := 52; f_ew := 11 |}.

Definition f_prec (f : fmt) : Z := Z.of_N (f_mw f) + 1.
Definition f_emax (f : fmt) : Z := 2 ^ (Z.of_N (f_ew f) - 1).
Definition f_emin (f : fmt) : Z := 3 - f_emax f - f_prec f.

(** memcpy from an integer to a float/double (e.g. vm_exec.c:22, 650) *)
Definition fdec (f : fmt) (x : N) : spec_float :=
  let man := x mod 2 ^ f_mw f in
  let ex := (x / 2 ^ f_mw f) mod 2 ^ f_ew f in
  let s := N.odd (x / 2 ^ (f_mw f + f_ew f)) in
  if ex =? 0 then
    match man with N0 => S754_zero s | Npos m => S754_finite s m (f_emin f) end
  else if ex =? 2 ^ f_ew f - 1 then
    (if man =? 0 then S754_infinity s else S754_nan)
  else
    match man + 2 ^ f_mw f with
    | N0 => S754_zero s
    | Npos m => S754_finite s m (Z.of_N ex - 1 + f_emin f)%Z
    end.

(** memcpy from a float/double to an integer (e.g. vm_exec.c:652) *)
Definition fenc (f : fmt) (v : spec_float) : N :=
  let sg (s : bool) := if s then 2 ^ (f_mw f + f_ew f) else 0 in
  let inf := (2 ^ f_ew f - 1) * 2 ^ f_mw f in
  match v with
  | S754_zero s => sg s
  | S754_infinity s => sg s + inf
  | S754_nan => inf + 2 ^ (f_mw f - 1)
  | S754_finite s m e =>
    if Npos m <? 2 ^ f_mw f then sg s + Npos m
    else sg s + (Npos m - 2 ^ f_mw f) + Z.to_N (e - f_emin f + 1) * 2 ^ f_mw f
  end.

Definition fop2 (f : fmt) (op : Z -> Z -> spec_float -> spec_float -> spec_float) (a b : N) : N :=
  fenc f (op (f_prec f) (f_emax f) (fdec f a) (fdec f b)).
Definition fadd (f : fmt) := fop2 f SFadd.
Definition fsub (f : fmt) := fop2 f SFsub.
Definition fmul (f : fmt) := fop2 f SFmul.
Definition fdiv (f : fmt) := fop2 f SFdiv.
Definition fsqrt (f : fmt) (a : N) : N := fenc f (SFsqrt (f_prec f) (f_emax f) (fdec f a)).

(** Unary minus and fabs act on the sign bit, also for NaN. *)
Definition dneg (a : N) : N := N.lxor a (2 ^ 63).
Definition dabs (a : N) : N := N.land a (2 ^ 63 - 1).

Definition feq (f : fmt) (a b : N) : bool := SFeqb (fdec f a) (fdec f b).
Definition flt (f : fmt) (a b : N) : bool := SFltb (fdec f a) (fdec f b).
Definition fle (f : fmt) (a b : N) : bool := SFleb (fdec f a) (fdec f b).

(** Conversion of a mathematical integer to a float/double *)
Definition f_of_Z (f : fmt) (z : Z) : N :=
  fenc f (binary_normalize (f_prec f) (f_emax f) z 0 false).

(** Rounding a value to another format: (float)d and (double)f *)
Definition f_conv (src dst : fmt) (x : N) : N :=
  fenc dst
    (match fdec src x with
     | S754_finite s m e =>
       binary_normalize (f_prec dst) (f_emax dst) (if s then Zneg m else Zpos m) e s
     | v => v
     end).

(** Truncation toward zero; [None] for NaN and infinities *)
Definition f_trunc (f : fmt) (x : N) : option Z :=
  match fdec f x with
  | S754_zero _ => Some 0%Z
  | S754_finite s m e =>
    let a := (if 0 <=? e then Zpos m * 2 ^ e else Zpos m / 2 ^ (- e))%Z in
    Some (if s then (- a)%Z else a)
  | _ => None
  end.

(** Does floor(x) == x hold?  (vm_exec.c:1614) *)
Definition f_is_int (f : fmt) (x : N) : bool :=
  match fdec f x with
  | S754_zero _ | S754_infinity _ => true
  | S754_nan => false
  | S754_finite _ m e => (if 0 <=? e then true else Zpos m mod 2 ^ (- e) =? 0)%Z
  end.

(** Conversion to an integer type with range [lo, hi]; out of range is undefined *)
Definition f_to_int (f : fmt) (lo hi : Z) (x : N) : result Z :=
  match f_trunc f x with
  | Some z => if (lo <=? z)%Z && (z <=? hi)%Z then Ok z else Ub UFloat
  | None => Ub UFloat
  end.

(** Constants appearing in vm_exec.c, as bit patterns *)
Definition d_zero : N := 0.
Definition d_m0_001 : N := 0xBF50624DD2F1A9FC.      (* -0.001     vm_exec.c:51 *)
Definition d_0_001 : N := 0x3F50624DD2F1A9FC.       (*  0.001     vm_exec.c:51 *)
Definition d_m1e7 : N := 0xBE7AD7F29ABCAF48.        (* -0.0000001 vm_exec.c:1533 *)
Definition d_1e7 : N := 0x3E7AD7F29ABCAF48.
Definition f_m1e5 : N := 0xB727C5AC.                (* -0.00001f  vm_exec.c:1527 *)
Definition f_1e5 : N := 0x3727C5AC.

(** libm functions are outside the model: theorems quantify over this record. *)
Record libm := {
  lm_sin : N -> N; lm_cos : N -> N; lm_tan : N -> N; lm_log : N -> N;
  lm_pow : N -> N -> N }.
