(** Compiled images, declaratively. *)
From Verif Require Import Base SpecBytes SpecVM.

(** The C string [s] is stored at position [p] *)
Definition string_at (img : list N) (p : N) (s : list N) : Prop :=
  p + lenN s + 1 <= lenN img /\ sub img p (lenN s + 1) = s ++ [0].

(** Index of the first occurrence *)
Fixpoint index_of (s : list N) (l : list (list N)) : option N :=
  match l with
  | [] => None
  | x :: r => if list_eq_dec N.eq_dec s x then Some 0 else option_map N.succ (index_of s r)
  end.

(** Bytes of a string table *)
Definition table_bytes (strs : list (list N)) : N := fold_right (fun s a => lenN s + 1 + a) 0 strs.

(** A header the loader accepts: 16 bytes at least, "CNDIL", version 1, both sections inside the image *)
Definition header_ok (img : list N) : Prop :=
  16 <= lenN img /\ sub img 0 5 = [67; 78; 68; 73; 76] /\ nthN img 5 = 1 /\
  val_of LE (sub img 8 4) <= lenN img /\ val_of LE (sub img 12 4) <= lenN img.

(** NUL bytes from position [p] on *)
Definition nuls (img : list N) (p : N) : N := lenN (filter (N.eqb 0) (skipn (N.to_nat p) img)).
