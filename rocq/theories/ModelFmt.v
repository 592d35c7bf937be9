(** Source formatter (src/compiler/cnd_fmt.c).  Texts as in ModelText. *)
From Verif Require Import Base ModelText.

(** FmtTokenType without FMT_EOF (cnd_fmt.c:10-28) *)
Inductive fkind : Type :=
| FIdent | FNumber | FString | FLbrace | FRbrace | FLbracket | FRbracket | FLparen | FRparen | FSemicolon | FColon | FComma
| FAt | FComment | FNewline | FWhite.

(** Characters of white space other than newlines (cnd_fmt.c:67, 69) and of numbers after the first (cnd_fmt.c:117) *)
Definition is_space (c : N) : bool := (c =? 32) || (c =? 9) || (c =? 13).
Definition is_num (c : N) : bool :=
  is_digit c || (c =? 120) || (c =? 88) || (c =? 46) || ((97 <=? c) && (c <=? 102)) || ((65 <=? c) && (c <=? 70)).

(** The one-character tokens (cnd_fmt.c:86-96) *)
Definition fpunct (c : N) : option fkind :=
  match c with
  | 123 => Some FLbrace | 125 => Some FRbrace | 91 => Some FLbracket | 93 => Some FRbracket
  | 40 => Some FLparen | 41 => Some FRparen | 59 => Some FSemicolon | 58 => Some FColon
  | 44 => Some FComma | 64 => Some FAt | _ => None
  end.

(** fmt_next, cnd_fmt.c:46-125: kind, text and rest; [None] at the end (FMT_EOF) *)
Definition fmt_next (l : list N) : option (fkind * list N * list N) :=
  match l with
  | [] => None
  | c :: r =>
    if c =? 10 then Some (FNewline, [c], r)
    else if is_space c then let (a, b) := span is_space r in Some (FWhite, c :: a, b)
    else if (c =? 47) && (peek 0 r =? 47) then
      let (a, b) := span (fun x => negb (x =? 10)) r in Some (FComment, c :: a, b)
    else match fpunct c with
    | Some k => Some (k, [c], r)
    | None =>
      if c =? 34 then
        let (a, b) := span (fun x => negb (x =? 34)) r in
        match b with q :: b => Some (FString, c :: a ++ [q], b) | [] => Some (FString, c :: a, []) end
      else if is_alpha c then let (a, b) := span is_alnum r in Some (FIdent, c :: a, b)
      else if is_digit c || ((c =? 45) && is_digit (peek 0 r)) then
        let (a, b) := span is_num r in Some (FNumber, c :: a, b)
      else Some (FIdent, [c], r)
    end
  end.

(** Local variables of cnd_format_source (cnd_fmt.c:141-147); [f_prev] is the kind of [prev], [None] for FMT_EOF.  The
    level is an int in the program: texts with 2^31 nested braces are outside the model. *)
Record fstate : Type := mkf { f_indent : N; f_newlines : N; f_space : bool; f_fresh : bool; f_prev : option fkind }.

(** sb_indent, cnd_fmt.c:130-132 *)
Fixpoint spaces (n : nat) : list N := match n with O => [] | S n => 32 :: 32 :: 32 :: 32 :: spaces n end.

(** White space and newlines of the source (cnd_fmt.c:153-164) *)
Definition note_white (s : fstate) : fstate :=
  match f_prev s with
  | None | Some FNewline => s
  | Some _ => mkf (f_indent s) (f_newlines s) true (f_fresh s) (f_prev s)
  end.
Definition note_newline (s : fstate) : fstate :=
  mkf (f_indent s) (if f_newlines s <? 2 then f_newlines s + 1 else f_newlines s) (f_space s) (f_fresh s) (f_prev s).

(** One token other than white space (cnd_fmt.c:166-208): the text appended and the state after it *)
Definition put_token (s : fstate) (k : fkind) (v : list N) : list N * fstate :=
  let indent := match k with FRbrace => N.pred (f_indent s) | _ => f_indent s end in
  let nl := match k with FRbrace => 1 | _ => f_newlines s end in
  let breaks := if (0 <? nl) && negb (f_fresh s) then if 1 <? nl then [10; 10] else [10] else [] in
  let fresh := if 0 <? nl then true else f_fresh s in
  let space := if 0 <? nl then false else f_space s in
  let lead := if fresh then spaces (N.to_nat indent) else if space then [32] else [] in
  let space := if fresh then space else false in
  let before := match k with FLbrace => [32] | _ => [] end in
  (breaks ++ lead ++ before ++ v,
   mkf (match k with FLbrace => indent + 1 | _ => indent end)
       (match k with FLbrace | FRbrace | FSemicolon | FComment => 1 | _ => 0 end)
       (match k with FComma => true | _ => space end) false (Some k)).

(** The loop of cnd_format_source (cnd_fmt.c:149-211); [None]: out of fuel *)
Fixpoint fmt_loop (fuel : nat) (l : list N) (s : fstate) : option (list N) :=
  match fuel with
  | O => None
  | S fuel =>
    match fmt_next l with
    | None => Some [10]
    | Some (k, v, r) =>
      match k with
      | FWhite => fmt_loop fuel r (note_white s)
      | FNewline => fmt_loop fuel r (note_newline s)
      | _ => let (o, s) := put_token s k v in option_map (app o) (fmt_loop fuel r s)
      end
    end
  end.
(** cnd_format_source, cnd_fmt.c:134-215 *)
Definition format_source (src : list N) : option (list N) := fmt_loop (S (length src)) src (mkf 0 0 false true None).
