(** src/vm/vm_exec.c lines 15-116: value transforms. *)
From Verif Require Import Base ModelFloat.

(** ctx->trans_type and the fields it selects (concordia.h:172-181, 229-240).
    The coefficient pointers into the bytecode are replaced by the 64-bit words
    they point to (the bytecode never changes); words are little-endian. *)
Inductive trans :=
| TNone
| TScale (factor offset : N)
| TAdd (i : Z) | TSub (i : Z) | TMul (i : Z) | TDiv (i : Z)
| TPoly (coef : list N)
| TSpline (pts : list (N * N)).

(** Result of an int64_t operation whose mathematical value is [z] *)
Definition i64 (z : Z) : result Z :=
  if ((- 2 ^ 63 <=? z) && (z <? 2 ^ 63))%Z then Ok z else Ub UOverflow.

(** vm_exec.c:98-106 *)
Definition int_to_eng (t : trans) (raw : Z) : result Z :=
  match t with
  | TAdd i => i64 (raw + i)
  | TSub i => i64 (raw - i)
  | TMul i => i64 (raw * i)
  | TDiv i => if (i =? 0)%Z then Ok raw else i64 (Z.quot raw i)
  | _ => Ok raw
  end.

(** vm_exec.c:108-116 *)
Definition int_to_raw (t : trans) (eng : Z) : result Z :=
  match t with
  | TAdd i => i64 (eng - i)
  | TSub i => i64 (eng + i)
  | TMul i => if (i =? 0)%Z then Ok eng else i64 (Z.quot eng i)
  | TDiv i => i64 (eng * i)
  | _ => Ok eng
  end.

(** vm_exec.c:23-28: Horner steps, coefficients from the second highest down *)
Definition poly_eval (coef : list N) (x : N) : N :=
  match rev coef with
  | [] => d_zero
  | top :: rest => fold_left (fun y c => fadd F64 (fmul F64 y x) c) rest top
  end.

(** vm_exec.c:36-49: value and derivative *)
Definition poly_eval2 (coef : list N) (x : N) : N * N :=
  match rev coef with
  | [] => (d_zero, d_zero)
  | top :: rest =>
    fold_left (fun '(y, dy) c =>
                 (fadd F64 (fmul F64 y x) c, fadd F64 (fmul F64 dy x) y))
              rest (top, d_zero)
  end.

(** vm_exec.c:33-56: at most 20 Newton iterations *)
Fixpoint poly_newton (n : nat) (coef : list N) (target x : N) : N :=
  match n with
  | O => x
  | S n' =>
    let '(y, dy) := poly_eval2 coef x in
    let diff := fsub F64 y target in
    if flt F64 d_m0_001 diff && flt F64 diff d_0_001 then x
    else if feq F64 dy d_zero then x
    else poly_newton n' coef target (fsub F64 x (fdiv F64 diff dy))
  end.
Definition poly_solve (coef : list N) (target : N) : N := poly_newton 20 coef target d_zero.

(** vm_exec.c:58-76.  The loop runs over consecutive pairs of points; [last] is
    the test i == count - 2. *)
Fixpoint spline_eval_loop (pts : list (N * N)) (x : N) : N :=
  match pts with
  | (x0, y0) :: (((x1, y1) :: rest') as rest) =>
    if (fle F64 x0 x && fle F64 x x1) || (match rest' with [] => true | _ => false end)
    then if feq F64 x1 x0 then y0
         else fadd F64 y0 (fdiv F64 (fmul F64 (fsub F64 x x0) (fsub F64 y1 y0)) (fsub F64 x1 x0))
    else spline_eval_loop rest x
  | _ => d_zero
  end.
Definition spline_eval := spline_eval_loop.

(** vm_exec.c:78-96 *)
Fixpoint spline_solve (pts : list (N * N)) (ty : N) : N :=
  match pts with
  | (x0, y0) :: (((x1, y1) :: _) as rest) =>
    if (fle F64 y0 ty && fle F64 ty y1) || (fle F64 ty y0 && fle F64 y1 ty)
    then if feq F64 y1 y0 then x0
         else fadd F64 x0 (fdiv F64 (fmul F64 (fsub F64 ty y0) (fsub F64 x1 x0)) (fsub F64 y1 y0))
    else spline_solve rest ty
  | _ => d_zero
  end.
