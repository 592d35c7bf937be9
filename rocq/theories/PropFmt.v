(** C44, C45: the source formatter. *)
From Coq Require Import Strings.String.
From Verif Require Import Base ModelText SpecText ModelFmt SpecFmt LemFmt LemFmtAgain LemFmtSame.

(** C44: formatting ends on every text, and for every tidy text (strings closed, no stray carriage return in a line comment, no
    quote or double slash inside a block comment: [tidy] in SpecFmt) the compiler sees the same tokens, kind and text, in the
    formatted text as in the source.  Full statement: for every text; see the refutations. *)
Theorem C44_tokens_partial src : tidy Code src = true -> exists o ts to,
  format_source src = Some o /\ lex src = Some ts /\ lex o = Some to /\ code to = code ts.
Proof. exact (format_code src). Qed.
Print Assumptions C44_tokens_partial.

Theorem C44_ends src : exists o, format_source src = Some o.
Proof. destruct (cuts_exists _ src (Nat.le_refl _)) as (its & t & C). eexists. exact (format_cut _ _ _ C). Qed.
Print Assumptions C44_ends.

Definition changed (src : list N) : bool :=
  match format_source src with
  | Some o => match lex src, lex o with
    | Some a, Some b => negb (if list_eq_dec (fun x y : kind * list N => ltac:(repeat decide equality)) (code a) (code b) then true else false)
    | _, _ => false end
  | None => false
  end.
Lemma changed_sound src : changed src = true -> exists o ts to,
  format_source src = Some o /\ lex src = Some ts /\ lex o = Some to /\ code to <> code ts.
Proof.
  unfold changed. destruct (format_source src) as [o|]; [|discriminate]. destruct (lex src) as [a|]; [|discriminate].
  destruct (lex o) as [b|] eqn:E; [|discriminate]. destruct (list_eq_dec _ _ _) as [|N]; [discriminate|]. intros _. exists o, a, b. repeat split; auto.
Qed.

(** A string literal left open at the end of the text gains a newline. *)
Theorem C44_refuted_open_string : exists src o ts to,
  format_source src = Some o /\ lex src = Some ts /\ lex o = Some to /\ code to <> code ts.
Proof. exists (chars "@import ""a"). apply changed_sound. vm_compute. reflexivity. Qed.
Print Assumptions C44_refuted_open_string.
(** A quote in a block comment makes the formatter rewrite the contents of the string literals after it. *)
Theorem C44_refuted_block_comment : exists src o ts to,
  format_source src = Some o /\ lex src = Some ts /\ lex o = Some to /\ code to <> code ts.
Proof. exists (chars "/* 5"" */ @import(""a;b"")"). apply changed_sound. vm_compute. reflexivity. Qed.
Print Assumptions C44_refuted_block_comment.

Definition src44 : list N :=
  chars "/* c; d */ struct   A{u8 x;@range(0,10)u16 y ; } // t" ++ [13; 10; 10; 10] ++ chars "/// doc" ++ [10] ++
  chars "packet P{A a;switch(x){case -1:u8 b;default:{}}@import ""q;r""}".
Example C44_nonvacuous : tidy Code src44 = true /\ option_map lenN (format_source src44) = Some (lenN src44 + 62)
  /\ option_map lenN (lex src44) = Some 45.
Proof. vm_compute. auto. Qed.
Example C44_witness_kind : tidy Code (chars "@import ""a") = false /\ tidy Code (chars "/* 5"" */ @import(""a;b"")") = false.
Proof. vm_compute. auto. Qed.

(** C45: formatting twice always reaches a text that formatting leaves unchanged, for every text whose strings are closed. Full
    statement: already the first pass does; see the refutation. *)
Theorem C45_second_pass_partial src : closed Code src = true -> exists o1 o2,
  format_source src = Some o1 /\ format_source o1 = Some o2 /\ format_source o2 = Some o2.
Proof. exact (format_twice src). Qed.
Print Assumptions C45_second_pass_partial.

(** A formatted text is changed by formatting it again: the line break after a semicolon becomes an empty line. *)
Theorem C45_refuted : exists src o1 o2, format_source src = Some o1 /\ format_source o1 = Some o2 /\ o1 <> o2.
Proof.
  exists (chars "u8 a; u8 b;"), (chars "u8 a;" ++ [10] ++ chars "u8 b;" ++ [10]), (chars "u8 a;" ++ [10; 10] ++ chars "u8 b;" ++ [10]).
  split; [vm_compute; reflexivity|]. split; [vm_compute; reflexivity|]. discriminate.
Qed.
Print Assumptions C45_refuted.
(** With a string left open every pass adds a newline. *)
Theorem C45_refuted_open_string : exists src o1 o2 o3, format_source src = Some o1 /\ format_source o1 = Some o2 /\
  format_source o2 = Some o3 /\ o2 <> o3.
Proof.
  exists [34], [34; 10], [34; 10; 10], [34; 10; 10; 10]. split; [vm_compute; reflexivity|]. split; [vm_compute; reflexivity|].
  split; [vm_compute; reflexivity|]. discriminate.
Qed.
Print Assumptions C45_refuted_open_string.
Example C45_nonvacuous : closed Code src44 = true /\ exists o1 o2, format_source src44 = Some o1 /\ format_source o1 = Some o2 /\ o1 <> o2.
Proof. split; [vm_compute; reflexivity|]. eexists. eexists. split; [vm_compute; reflexivity|]. split; [vm_compute; reflexivity|]. discriminate. Qed.
