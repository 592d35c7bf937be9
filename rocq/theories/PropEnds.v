(** C50: compilation ends, with one answer. *)
From Coq Require Import Strings.String.
From Verif Require Import Base ModelWord ModelTrans ModelVM SpecVM ModelText SpecText ModelParse ModelSchema ModelImage LemText LemLex PropText
  LemMono LemEnds.

(** Whatever the sources say, and however they import one another, compiling ends: with some amount of fuel the model answers,
    and with more fuel it gives the same answer.  Only finitely many paths name a readable file, and a canonical path is a C
    string.  The answer is an image, a refusal or undefined behaviour ([CUndef], see C36, C39). *)
Theorem C50_compilation_ends : forall E files,
  (forall q, text (e_canon E q)) -> (forall q, e_read E q <> None -> In q files) ->
  forall path, exists answer n, answer <> CFuel /\ forall fuel, (n <= fuel)%nat -> compile_file E fuel path = answer.
Proof.
  intros E files CT FI path. destruct (compile_ends E files) with (path := path) as (n & X); auto.
  { intros src. destruct (C38_tokens src) as (ts & -> & _). discriminate. }
  exists (compile_file E n path), n. split; [apply X; apply PeanoNat.Nat.le_refl|].
  intros fuel L. apply compile_mono; [exact L|apply X; apply PeanoNat.Nat.le_refl].
Qed.
Print Assumptions C50_compilation_ends.

(** Two files which import each other and themselves, one also importing a file that does not exist *)
Definition cycle : env := {|
  e_strtod := fun _ => 0;
  e_read := fun q =>
    if same_text q (chars "a.cnd") then Some (chars "@import(""b.cnd"") @import(""a.cnd"") packet P { B b; }")
    else if same_text q (chars "b.cnd") then Some (chars "@import(""a.cnd"") @import(""b.cnd"") struct B { u8 x; }")
    else if same_text q (chars "c.cnd") then Some (chars "@import(""d.cnd"") packet P { u8 x; }")
    else None;
  e_canon := fun q => if forallb (fun b => (0 <? b) && (b <? 256)) q then q else [] |}.
Example C50_nonvacuous :
  (forall q, text (e_canon cycle q)) /\
  (forall q, e_read cycle q <> None -> In q [chars "a.cnd"; chars "b.cnd"; chars "c.cnd"]) /\
  (exists im, compile_file cycle 60 (chars "a.cnd") = CImage im) /\ compile_file cycle 60 (chars "c.cnd") = CRefused.
Proof.
  split; [|split; [|split]].
  - intros q. cbn [cycle e_canon]. destruct (forallb _ q) eqn:F; [|constructor].
    apply Forall_forall. intros b I. apply (proj1 (forallb_forall _ _) F) in I.
    apply andb_true_iff in I. destruct I as (A & B). apply N.ltb_lt in A, B. now split.
  - intros q. cbn [cycle e_read]. unfold same_text.
    repeat (destruct list_eq_dec as [-> |]; [intros _; cbn; auto|]). intros X. now destruct X.
  - eexists. vm_compute. reflexivity.
  - vm_compute. reflexivity.
Qed.
