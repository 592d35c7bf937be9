(** C39: expressions are compiled to the postfix code of their conventional parse. *)
From Coq Require Import Strings.String.
From Verif Require Import Base SpecBytes SpecVM ModelVM ModelText SpecText ModelParse SpecParse LemParse Samples.

(** C39, for expressions without parentheses around operands, unary operators and hexadecimal literals with the digit e:
    standing before the tokens of an expression, followed by ")" or ",", the parser reads exactly these, reports no error,
    appends the postfix code of the expression's conventional parse, and adds the names to the table.
    Missing: parentheses, unary operators, such hexadecimal literals; see the refutations. *)
Theorem C39_postfix_partial : forall E ws e, reads false 1 ws e ->
  forall p l t r, map word_of l = ws -> before p l t r -> tk t = TRparen \/ tk t = TComma ->
  Forall text (p_strs p) ->
  forall tab, tab = fst (intern (p_strs p) (names e)) -> lenN tab <= 65536 ->
  exists n, forall f, (n <= f)%nat -> parse_expression E f p =
    POk (type_of e) (set_out (p_out p ++ code (parse_number_double E) (index_of tab) e) (set_strs tab (beyond p l t r))).
Proof. exact expression_spec. Qed.
Print Assumptions C39_postfix_partial.

(** Without floating point, calls and self, that is the code whose execution C29 describes. *)
Theorem C39_integers : forall dbl id e i, integer_expr id e = Some i -> code dbl id e = postfix i.
Proof. exact integer_code. Qed.
Print Assumptions C39_integers.

(** Every alternating sequence of operands and binary operators is such an expression. *)
Theorem C39_sequences : forall ws e l, reads false 12 ws e ->
  Forall (fun x => let '(w, o, us) := x in fixed (fst (operator o)) w /\ exists e, reads false 12 us e) l ->
  exists e', reads false 1 (ws ++ flat l) e'.
Proof.
  intros ws e l R F. apply (flat_reads (S (length l)) l) with (e := e); auto. discriminate.
  eapply Forall_impl; [|exact F]. intros [[w o] us] [A B]. repeat split; auto. destruct o; discriminate.
Qed.
Print Assumptions C39_sequences.

(** ** Samples *)
Definition env0 : env := {| e_strtod := fun _ => 0x3FF8000000000000; e_read := fun _ => None; e_canon := fun x => x |}.
Definition tokens (s : String.string) : list token := match lex (chars s) with Some l => l | None => [] end.
(** The parser before the tokens of a text *)
Definition reading (s : String.string) : pst :=
  match tokens s with
  | t :: r => mkp r t t [] [] [] [] [] [] None [] false 0 0 false false 0 false [] []
  | [] => mkp [] {| tk := TEof; tpos := 0; ttext := []; tline := 0 |} {| tk := TEof; tpos := 0; ttext := []; tline := 0 |}
            [] [] [] [] [] [] None [] false 0 0 false false 0 false [] []
  end.
Definition parse_text (s : String.string) : option (list N * list (list N) * bool * kind) :=
  match parse_expression env0 50 (reading s) with
  | POk _ p => Some (p_out p, p_strs p, p_err p, tk (p_cur p))
  | _ => None
  end.

Definition sample1 : expr :=
  XBin ILOr (XBin IEq (XBin ISub (XBin IMul (XField (chars "a")) (XInt 2)) (XField (chars "p.x"))) (XInt 10))
    (XBin ILt (XFn FSqrt (XBin IAdd (XField (chars "a")) (XInt 1))) (XFloat (chars "1.5"))).
Example C39_nonvacuous :
  reads false 1 (map word_of (removelast (removelast (tokens "a * 2 - p.x == 0xA || sqrt(a + 1) < 1.5)")))) sample1 /\
  parse_text "a * 2 - p.x == 0xA || sqrt(a + 1) < 1.5)" =
  Some (code (parse_number_double env0) (index_of [chars "a"; chars "p.x"]) sample1, [chars "a"; chars "p.x"], false, TRparen) /\
  parse_text "a - b - c * 2)" =
  Some (postfix (EBin ISub (EBin ISub (EField 0) (EField 1)) (EBin IMul (EField 2) (ELit 2))), [chars "a"; chars "b"; chars "c"], false, TRparen).
Proof.
  split; [|split; vm_compute; reflexivity].
  assert (D : forall f c, dec_char c f -> exists v, literal [c] v /\ v = positional 10 [f]).
  { intros f c X. eexists. split; [apply (lit_dec [c] [f]); repeat constructor; apply X|reflexivity]. }
  assert (A : forall lv n, text n -> ~ callable n -> reads false lv [(TIdentifier, n)] (XField n)).
  { intros lv n T C. apply rd_field; auto. now constructor. }
  assert (NC : ~ callable (chars "a")) by (intros [C|[f C]]; [discriminate|destruct f; discriminate]).
  assert (TA : text (chars "a")) by (repeat constructor).
  apply (rd_bin false 1 ILOr (TPipePipe, chars "||")
    [(TIdentifier, chars "a"); (TStar, chars "*"); (TNumber, chars "2"); (TMinus, chars "-"); (TIdentifier, chars "p"); (TDot, chars ".");
     (TIdentifier, chars "x"); (TEqEq, chars "=="); (TNumber, chars "0xA")]
    [(TIdentifier, chars "sqrt"); (TLparen, chars "("); (TIdentifier, chars "a"); (TPlus, chars "+"); (TNumber, chars "1"); (TRparen, chars ")");
     (TLt, chars "<"); (TNumber, chars "1.5")]); [reflexivity|discriminate| |].
  - apply (rd_bin false 1 IEq (TEqEq, chars "==")
      [(TIdentifier, chars "a"); (TStar, chars "*"); (TNumber, chars "2"); (TMinus, chars "-"); (TIdentifier, chars "p"); (TDot, chars ".");
       (TIdentifier, chars "x")] [(TNumber, chars "0xA")]); [reflexivity|discriminate| |].
    + apply (rd_bin false 6 ISub (TMinus, chars "-") [(TIdentifier, chars "a"); (TStar, chars "*"); (TNumber, chars "2")]
        [(TIdentifier, chars "p"); (TDot, chars "."); (TIdentifier, chars "x")]); [reflexivity|discriminate| |].
      * apply (rd_bin false 9 IMul (TStar, chars "*") [(TIdentifier, chars "a")] [(TNumber, chars "2")]); [reflexivity|discriminate|auto|].
        apply rd_int; [|intros _; split; intros [X|[]]; discriminate].
        apply (it_plus (chars "2") 2). apply (lit_dec _ [2]). repeat constructor.
      * apply rd_field; [|intros [C|[f C]]; [discriminate|destruct f; discriminate]].
        apply (dt_dot [(TIdentifier, chars "p")] (chars "p") (TDot, chars ".") (chars "x")); try reflexivity; repeat constructor.
    + apply rd_int; [|intros _; split; intros [X|[X|[X|[]]]]; discriminate].
      apply (it_plus (chars "0xA") 10). apply (lit_hex 120 [65] [10]); [discriminate|auto|]. apply Forall2_cons; [right; split; [split; [discriminate|reflexivity]|auto]|apply Forall2_nil].
  - apply (rd_bin false 2 ILt (TLt, chars "<")
      [(TIdentifier, chars "sqrt"); (TLparen, chars "("); (TIdentifier, chars "a"); (TPlus, chars "+"); (TNumber, chars "1"); (TRparen, chars ")")]
      [(TNumber, chars "1.5")]); [reflexivity|discriminate| |].
    + apply (rd_fn false 7 FSqrt (TLparen, chars "(") [(TIdentifier, chars "a"); (TPlus, chars "+"); (TNumber, chars "1")] (TRparen, chars ")"));
        [reflexivity| |reflexivity].
      apply (rd_bin false 1 IAdd (TPlus, chars "+") [(TIdentifier, chars "a")] [(TNumber, chars "1")]); [reflexivity|discriminate|auto|].
      apply rd_int; [|intros _; split; intros [X|[]]; discriminate].
      apply (it_plus (chars "1") 1). apply (lit_dec _ [1]). repeat constructor.
    + apply rd_float. right. left. reflexivity.
Qed.

(** ** Refutations *)

(** A negated field is refused... *)
Theorem C39_refuted_unary : exists e out strs k,
  reads true 1 (map word_of (removelast (removelast (tokens "-a)")))) e /\
  parse_text "-a)" = Some (out, strs, true, k).
Proof.
  exists (XUn INeg (XField (chars "a"))). do 3 eexists. split; [|vm_compute; reflexivity].
  apply (rd_un true 1 INeg (TMinus, chars "-") [(TIdentifier, chars "a")]); [reflexivity|reflexivity|discriminate|].
  apply rd_field; [constructor; repeat constructor|intros [C|[f C]]; [discriminate|destruct f; discriminate]].
Qed.
Print Assumptions C39_refuted_unary.
(** ... and a doubly negated one compiles, without an error, to a single negation. *)
Theorem C39_refuted_double : exists e out strs,
  reads true 1 (map word_of (removelast (removelast (tokens "- -a)")))) e /\
  parse_text "- -a)" = Some (out, strs, false, TRparen) /\ out <> code (parse_number_double env0) (index_of strs) e /\
  out = code (parse_number_double env0) (index_of strs) (XUn INeg (XField (chars "a"))).
Proof.
  exists (XUn INeg (XUn INeg (XField (chars "a")))), [0x60; 0; 0; 0x77], [chars "a"].
  split; [|split; [vm_compute; reflexivity|split; [discriminate|reflexivity]]].
  apply (rd_un true 1 INeg (TMinus, chars "-") [(TMinus, chars "-"); (TIdentifier, chars "a")]); [reflexivity|reflexivity|discriminate|].
  apply (rd_un true 11 INeg (TMinus, chars "-") [(TIdentifier, chars "a")]); [reflexivity|reflexivity|discriminate|].
  apply rd_field; [constructor; repeat constructor|intros [C|[f C]]; [discriminate|destruct f; discriminate]].
Qed.
Print Assumptions C39_refuted_double.
(** A parenthesised sum is refused... *)
Theorem C39_refuted_parentheses : exists e out strs k,
  reads true 1 (map word_of (removelast (removelast (tokens "(a + b) * 2)")))) e /\
  parse_text "(a + b) * 2)" = Some (out, strs, true, k).
Proof.
  exists (XBin IMul (XBin IAdd (XField (chars "a")) (XField (chars "b"))) (XInt 2)). do 3 eexists. split; [|vm_compute; reflexivity].
  apply (rd_bin true 1 IMul (TStar, chars "*")
    [(TLparen, chars "("); (TIdentifier, chars "a"); (TPlus, chars "+"); (TIdentifier, chars "b"); (TRparen, chars ")")] [(TNumber, chars "2")]);
    [reflexivity|discriminate| |].
  - apply (rd_paren true 10 (TLparen, chars "(") [(TIdentifier, chars "a"); (TPlus, chars "+"); (TIdentifier, chars "b")] (TRparen, chars ")"));
      [reflexivity|reflexivity| |reflexivity].
    apply (rd_bin true 1 IAdd (TPlus, chars "+") [(TIdentifier, chars "a")] [(TIdentifier, chars "b")]); [reflexivity|discriminate| |];
      (apply rd_field; [constructor; repeat constructor|intros [C|[f C]]; [discriminate|destruct f; discriminate]]).
  - apply rd_int; [|discriminate]. apply (it_plus (chars "2") 2). apply (lit_dec _ [2]). repeat constructor.
Qed.
Print Assumptions C39_refuted_parentheses.
(** ... while a text that is no expression compiles to the part after its first operand. *)
Theorem C39_refuted_skipped : exists out strs,
  parse_text "(a b) * 2)" = Some (out, strs, false, TRparen) /\
  out = postfix (EBin IMul (EField 0) (ELit 2)) /\ strs = [chars "b"].
Proof. do 2 eexists. split; [vm_compute; reflexivity|]. split; reflexivity. Qed.
Print Assumptions C39_refuted_skipped.
(** A hexadecimal integer with the digit e is compiled as a floating-point number. *)
Theorem C39_refuted_hexadecimal : exists out,
  int_text (chars "0xE") 14 /\ parse_text "0xE)" = Some (out, [], false, TRparen) /\
  out <> code (parse_number_double env0) (fun _ => 0) (XInt 14) /\ parse_text "0xE == 1)" <> parse_text "14 == 1)".
Proof.
  eexists. split; [|split; [vm_compute; reflexivity|split; [discriminate|vm_compute; discriminate]]].
  apply (it_plus (chars "0xE") 14). apply (lit_hex 120 [69] [14]); [discriminate|auto|]. 
  apply Forall2_cons; [right; split; [split; [discriminate|reflexivity]|auto]|apply Forall2_nil].
Qed.
Print Assumptions C39_refuted_hexadecimal.
(** Subtraction of a literal written without a space: the lexer takes the sign into the number, and the expression ends
    before it, where its follower is expected. *)
Theorem C39_refuted_minus : exists out strs k,
  map word_of (tokens "a-1)") = [(TIdentifier, chars "a"); (TNumber, chars "-1"); (TRparen, chars ")"); (TEof, [])] /\
  parse_text "a-1)" = Some (out, strs, false, k) /\ k = TNumber.
Proof. do 3 eexists. split; [reflexivity|]. split; [vm_compute; reflexivity|reflexivity]. Qed.
Print Assumptions C39_refuted_minus.
(** A doc comment inside an expression makes the parser read past its table of rules. *)
Theorem C39_refuted_comment : exists u,
  parse_expression env0 50 (reading "a /// note") = PUb u.
Proof. eexists. vm_compute. reflexivity. Qed.
Print Assumptions C39_refuted_comment.
