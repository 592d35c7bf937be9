(** C61: layout, comments and formatting do not change what the compiler makes of a schema. *)
From Coq Require Import Strings.String.
From Verif Require Import Base ModelText SpecText ModelFmt SpecFmt ModelParse ModelSchema SpecAlike LemAlike.

(** Two sets of files with the same tokens, the root and all imported files alike, compile to the same image, or are refused both.
    [fuel] bounds the steps of the model's compiler (C50: enough fuel always exists). *)
Theorem C61_layout E E' fuel path : same_sources E E' -> compile_file E fuel path = compile_file E' fuel path.
Proof. intros S. exact (compile_same E E' S fuel path). Qed.
Print Assumptions C61_layout.

(** Running the formatter over any of the files does not change the image, if those are tidy ([tidy] in SpecFmt).  Full statement:
    for all texts; see the refutation. *)
Theorem C61_formatting_partial which E fuel path : (forall p s, which p = true -> e_read E p = Some s -> tidy Code s = true) ->
  compile_file (formatted which E) fuel path = compile_file E fuel path.
Proof. intros T. symmetry. apply compile_same. now apply formatted_same. Qed.
Print Assumptions C61_formatting_partial.

(** A schema with two files, by their names *)
Definition two (root other name : list N) : env :=
  {| e_strtod := fun _ => 0; e_canon := fun x => x;
     e_read := fun p => if same_text p (chars "r") then Some root else if same_text p name then Some other else None |}.
Definition odd61 : env := two (chars "/* 5"" */ @import(""a;b"") packet P { u8 x; }") (chars "enum E { A }") (chars "a;b").
Theorem C61_refuted_block_comment : exists im,
  compile_file odd61 100 (chars "r") = CImage im /\ compile_file (formatted (fun _ => true) odd61) 100 (chars "r") = CRefused.
Proof.
  destruct (compile_file odd61 100 (chars "r")) as [im| | |] eqn:C.
  - exists im. split; [reflexivity|]. vm_compute. reflexivity.
  - exfalso. vm_compute in C. discriminate.
  - exfalso. vm_compute in C. discriminate.
  - exfalso. vm_compute in C. discriminate.
Qed.
Print Assumptions C61_refuted_block_comment.

Definition root61 : list N := chars "@import(""o"") packet P{@range(1,5)u8 x;S s[3];if(x>2){E e;}else{i16 f;}switch(x){case 1:u8 a;case E.B:u16 b;default:{}}}".
Definition more61 : list N := chars "/// doc" ++ [10] ++ chars "enum E:u8{A,B=7}struct S{u16 v;//c" ++ [10] ++ chars "/*x*/bool w;}".
Definition env61 : env := two root61 more61 (chars "o").
(** The same schema with other white space and comments *)
Definition root61' : list N := chars "@import" ++ [9] ++ chars "(""o"")" ++ [13; 10] ++ chars "packet P { @range( 1 , 5 ) u8 x; // first" ++ [10] ++
  chars "S s [3]; if (x > 2) { E e; } else { i16 f; } switch (x) { case 1: u8 a; case E.B: u16 b; /* none */ default: { } } }" ++ [10].
Example C61_nonvacuous :
  same_sources env61 (two root61' more61 (chars "o")) /\
  (exists im, compile_file env61 100 (chars "r") = CImage im /\ 100 < lenN im) /\
  (forall p s, e_read env61 p = Some s -> tidy Code s = true) /\
  (exists s, format_source root61 = Some s /\ s <> root61).
Proof.
  split; [|split; [|split]].
  - repeat split. intros p. cbn [two env61 e_read]. destruct (same_text p (chars "r")); [|destruct (same_text p (chars "o"))].
    + exists (match lex root61 with Some t => t | None => [] end), (match lex root61' with Some t => t | None => [] end). vm_compute. auto.
    + exists (match lex more61 with Some t => t | None => [] end), (match lex more61 with Some t => t | None => [] end). vm_compute. auto.
    + exact Logic.I.
  - exists (match compile_file env61 100 (chars "r") with CImage im => im | _ => [] end). vm_compute. auto.
  - intros p s. cbn [two env61 e_read]. destruct (same_text p (chars "r")); [|destruct (same_text p (chars "o"))]; intros [= <-]; vm_compute; reflexivity.
  - exists (match format_source root61 with Some o => o | None => [] end). split; [vm_compute; reflexivity|]. intros H.
    apply (f_equal lenN) in H. vm_compute in H. discriminate.
Qed.
