(** C36-C38: number literals, interning of names, lexing. *)
From Coq Require Import Strings.String.
From Verif Require Import Base ModelVM SpecVM ModelText SpecText LemText LemLex.

(** C36 (32 bits): a decimal or hexadecimal literal denotes its value modulo 2^32. *)
Theorem C36_u32 s v : literal s v -> parse_number_u32 s = v mod 2 ^ 32.
Proof. intros L. apply acc_number_spec; [discriminate|exact L]. Qed.
Print Assumptions C36_u32.

(** C36 (64 bits): a literal denotes its value, a leading minus its negative, read as a 64-bit two's complement number (so
    exactly when it fits).  A negated literal congruent to 2^63 overflows, see the refutation. *)
Theorem C36_i64_partial s v : literal s v ->
  parse_number_i64 s = Ok (wrap64 (Z.of_N v)) /\
  (v mod 2 ^ 64 <> 2 ^ 63 -> parse_number_i64 (45 :: s) = Ok (wrap64 (- Z.of_N v))).
Proof.
  intros L. destruct (i64_spec s v L) as (A & B & _). split; [exact A|]. intros X. rewrite B.
  destruct (N.eqb_spec (v mod 2 ^ 64) (2 ^ 63)); [contradiction|reflexivity].
Qed.
Print Assumptions C36_i64_partial.

Theorem C36_fits z : (- 2 ^ 63 <= z < 2 ^ 63)%Z -> wrap64 z = z.
Proof. exact (wrap64_fits z). Qed.
Print Assumptions C36_fits.

(** The smallest 64-bit number cannot be written without undefined behaviour (negation overflow). *)
Theorem C36_refuted_min : exists s v, literal s v /\ parse_number_i64 (45 :: s) = Ub UOverflow /\ (- Z.of_N v = - 2 ^ 63)%Z.
Proof.
  exists (chars "9223372036854775808"), (positional 10 [9; 2; 2; 3; 3; 7; 2; 0; 3; 6; 8; 5; 4; 7; 7; 5; 8; 0; 8]).
  split; [|vm_compute; auto]. constructor. repeat (constructor; [split; reflexivity|]). constructor.
Qed.
Print Assumptions C36_refuted_min.

(** Where a 32-bit number is expected a leading minus is ignored, and a negative hexadecimal literal is read as decimal. *)
Theorem C36_refuted_u32_sign :
  parse_number_u32 (chars "-5") = 5 /\ parse_number_u32 (chars "-0x10") = 10 /\ literal (chars "5") 5 /\ literal (chars "0x10") 16.
Proof.
  split; [reflexivity|]. split; [reflexivity|]. split.
  - apply (lit_dec _ [5]). repeat (constructor; [split; reflexivity|]). constructor.
  - apply (lit_hex 120 (chars "10") [1; 0]); [discriminate|auto|]. repeat (constructor; [left; split; reflexivity|]). constructor.
Qed.
Print Assumptions C36_refuted_u32_sign.

Example C36_nonvacuous :
  literal (chars "4294967298") 4294967298 /\ parse_number_u32 (chars "4294967298") = 2 /\
  literal (chars "0xfF") 255 /\ parse_number_u32 (chars "0XfF") = 255 /\
  parse_number_i64 (chars "-0xff") = Ok (-255)%Z /\ parse_number_i64 (chars "18446744073709551615") = Ok (-1)%Z.
Proof.
  split; [apply (lit_dec _ [4; 2; 9; 4; 9; 6; 7; 2; 9; 8]); repeat (constructor; [split; reflexivity|]); constructor|].
  split; [reflexivity|]. split; [|vm_compute; auto].
  apply (lit_hex 120 (chars "fF") [15; 15]); [discriminate|auto|].
  constructor; [right; split; [split; [discriminate|reflexivity]|auto]|].
  constructor; [right; split; [split; [discriminate|reflexivity]|auto]|]. constructor.
Qed.

(** C37: interning any sequence of NUL-free names, as long as no more than 65536 different ones come up: every returned
    identifier is where that very name stands in the final table (and stood from the moment it was returned), equal names get
    equal identifiers, different names different ones. *)
Theorem C37_interning names t' ids : Forall text names -> intern [] names = (t', ids) -> lenN t' <= 65536 ->
  NoDup t' /\
  Forall2 (fun s i => i < lenN t' /\ nth (N.to_nat i) t' [] = s) names ids /\
  (forall j k, (j < length names)%nat -> (k < length names)%nat ->
     (nth j ids 0 = nth k ids 0 <-> nth j names [] = nth k names [])).
Proof. exact (intern_all names t' ids). Qed.
Print Assumptions C37_interning.

(** One step: existing identifiers keep their names, and interning a name already there changes nothing. *)
Theorem C37_stable t s t' i : Forall text t -> text s -> NoDup t -> lenN t <= 65536 ->
  strtab_add t s = (t', i) -> lenN t' <= 65536 ->
  (exists x, t' = t ++ x) /\ (In s t -> t' = t) /\ i < lenN t' /\ nth (N.to_nat i) t' [] = s /\ NoDup t'.
Proof.
  intros T TS ND L E L'. pose proof (add_spec t s T TS ND L) as A. rewrite E in A. cbn [fst] in A. specialize (A L').
  destruct A as (A1 & A2 & A3 & A4 & A5 & A6). auto.
Qed.
Print Assumptions C37_stable.

Example C37_nonvacuous :
  Forall text [chars "b"; chars "a"; chars "b"; chars "ab"] /\
  intern [] [chars "b"; chars "a"; chars "b"; chars "ab"] = ([chars "b"; chars "a"; chars "ab"], [0; 1; 0; 2]).
Proof. split; [repeat constructor|vm_compute; reflexivity]. Qed.

(** C38: lexing any text ends; the text is exactly the tokens in order, each where its position says, separated by white space
    and comments only, each token being a maximal lexeme of its kind ([tokens_of], [piece], [spelled], [blank] in SpecText). *)
Theorem C38_tokens src : exists ts, lex src = Some ts /\ tokens_of 0 src ts.
Proof. apply lex_from_spec. apply PeanoNat.Nat.lt_succ_diag_r. Qed.
Print Assumptions C38_tokens.

(** Full statement: the line of every token is one more than the number of newlines before it.  Proved when no string literal
    spans lines. *)
Theorem C38_lines_partial src ts : lex src = Some ts ->
  Forall (fun t => tk t = TString -> ~ In 10 (ttext t)) ts ->
  Forall (fun t => tline t = 1 + newlines (firstn (N.to_nat (tpos t)) src)) ts.
Proof.
  intros L. apply (lex_from_lines (S (length src)) src [] src 1 ts); auto.
Qed.
Print Assumptions C38_lines_partial.

(** A newline inside a string literal is not counted. *)
Definition src38r : list N := [34; 10; 34; 97].
Theorem C38_refuted_lines : exists src ts t, lex src = Some ts /\ In t ts /\
  tline t <> 1 + newlines (firstn (N.to_nat (tpos t)) src).
Proof.
  exists src38r. eexists. exists {| tk := TIdentifier; tpos := 3; ttext := [97]; tline := 1 |}.
  split; [vm_compute; reflexivity|]. split; [cbn; tauto|]. vm_compute. discriminate.
Qed.
Print Assumptions C38_refuted_lines.

Definition src38 : list N := chars "/* a */ struct x1 // c" ++ [10] ++ chars "{ @le u8 y[0x1f] >>= ""s"" -1.5 $" ++ [10].
Example C38_nonvacuous :
  option_map (map (fun t => (tk t, tpos t, ttext t, tline t))) (lex src38) = Some
  [(TStruct, 8, chars "struct", 1); (TIdentifier, 15, chars "x1", 1); (TLbrace, 23, chars "{", 2); (TAt, 25, chars "@", 2);
   (TIdentifier, 26, chars "le", 2); (TIdentifier, 29, chars "u8", 2); (TIdentifier, 32, chars "y", 2); (TLbracket, 33, chars "[", 2);
   (TNumber, 34, chars "0x1f", 2); (TRbracket, 38, chars "]", 2); (TRshift, 40, chars ">>", 2); (TEquals, 42, chars "=", 2);
   (TString, 45, chars "s", 2); (TNumber, 48, chars "-1.5", 2); (TError, 53, chars "$", 2); (TEof, 55, [], 3)].
Proof. vm_compute. reflexivity. Qed.
