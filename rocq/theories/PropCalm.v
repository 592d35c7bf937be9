(** C75: when the compiler is free of undefined behaviour. *)
From Coq Require Import Strings.String ZifyBool ZifyNat ZifyN Lia.
From Verif Require Import Base ModelWord ModelTrans ModelVM SpecVM ModelText SpecText ModelParse ModelSchema SpecCalm PropEnds PropPacket PropSite.
From Verif Require LemCalm.
Local Open Scope N_scope.

(** The whole property would be: compile_file E fuel path <> CUndef u for all E, fuel, path and u.  It is false, for five reasons shown below.
    Three of them are numbers: with numbers of at most 18 digits, and no structure of unaligned bytes, no signed arithmetic overflows,
    whatever else the files say, however wrong they are, and however they import one another. *)
Theorem C75_no_overflow : forall E, every_file E (fun toks => modest toks /\ no_keyword "unaligned_bytes" toks) ->
  forall fuel path, compile_file E fuel path <> CUndef UOverflow.
Proof.
  intros E F fuel path X. apply (LemCalm.calm_file false false) in X; [destruct X as (_ & X); discriminate X|].
  intros q src toks RD LX. destruct (F q src toks RD LX) as ((M & L) & K). split; [|split; [exact L|cbn; lia]].
  unfold no_keyword in *. rewrite Forall_forall in *. intros t T. split; [apply LemCalm.digits_mild, M, T|]. split; [discriminate|]. split; [|discriminate]. intros _.
  unfold match_keyword, is_kind, same_text. destruct (kind_eq_dec (tk t) TIdentifier) as [KI|]; [|reflexivity].
  destruct (list_eq_dec N.eq_dec (ttext t) (chars "unaligned_bytes")) as [EQ|]; [|reflexivity]. destruct (K t T KI EQ).
Qed.
Print Assumptions C75_no_overflow.

(** With unaligned structures too, if numbers have at most 4 digits and a file at most 30000 tokens *)
Theorem C75_no_overflow_bits : forall E, every_file E slight -> forall fuel path, compile_file E fuel path <> CUndef UOverflow.
Proof.
  intros E F fuel path X. apply (LemCalm.calm_file true false) in X; [destruct X as (_ & X); discriminate X|].
  intros q src toks RD LX. destruct (F q src toks RD LX) as (M & L). split; [|split; [|change (LemCalm.unit_ true) with 65536%Z; lia]].
  - rewrite Forall_forall in *. intros t T. split; [|split; [intros _; apply LemCalm.digits_short, M, T|split; discriminate]].
    apply LemCalm.digits_mild. eapply LemCalm.digits_more; [apply M, T|lia|lia].
  - eapply N.le_lt_trans; [exact L|]. reflexivity.
Qed.
Print Assumptions C75_no_overflow_bits.

(** And no undefined behaviour at all if there is neither a doc comment nor a structure; then compilation ends with an image or a refusal.
    Missing: structures whose flattened names are short enough, and doc comments outside expressions. *)
Theorem C75_never_undefined_partial : forall E,
  every_file E (fun toks => modest toks /\ no_keyword "unaligned_bytes" toks) \/ every_file E slight ->
  every_file E (fun toks => no_kind TDoc toks /\ no_kind TStruct toks) ->
  (forall fuel path u, compile_file E fuel path <> CUndef u) /\
  (forall files, (forall q, text (e_canon E q)) -> (forall q, e_read E q <> None -> In q files) ->
   forall path, exists n, compile_file E n path = CRefused \/ exists img, compile_file E n path = CImage img).
Proof.
  intros E F G. assert (N : forall fuel path u, compile_file E fuel path <> CUndef u).
  { intros fuel path u X. destruct F as [F|F].
    - apply (LemCalm.calm_file false true) in X; [destruct X as (X & _); discriminate X|].
      intros q src toks RD LX. destruct (F q src toks RD LX) as ((M & L) & K). destruct (G q src toks RD LX) as (G1 & G2). split; [|split; [exact L|cbn; lia]].
      unfold no_keyword, no_kind in *. rewrite Forall_forall in *. intros t T. split; [apply LemCalm.digits_mild, M, T|]. split; [discriminate|]. split; [|intros _; auto]. intros _.
      unfold match_keyword, is_kind, same_text. destruct (kind_eq_dec (tk t) TIdentifier) as [KI|]; [|reflexivity].
      destruct (list_eq_dec N.eq_dec (ttext t) (chars "unaligned_bytes")) as [EQ|]; [|reflexivity]. destruct (K t T KI EQ).
    - apply (LemCalm.calm_file true true) in X; [destruct X as (X & _); discriminate X|].
      intros q src toks RD LX. destruct (F q src toks RD LX) as (M & L). destruct (G q src toks RD LX) as (G1 & G2). split; [|split; [|change (LemCalm.unit_ true) with 65536%Z; lia]].
      + unfold no_kind in *. rewrite Forall_forall in *. intros t T. split; [|split; [intros _; apply LemCalm.digits_short, M, T|split; [discriminate|intros _; auto]]].
        apply LemCalm.digits_mild. eapply LemCalm.digits_more; [apply M, T|lia|lia].
      + eapply N.le_lt_trans; [exact L|]. reflexivity. }
  split; [exact N|]. intros files CT FI path. destruct (C50_compilation_ends E files CT FI path) as (a & n & NF & AN). exists n.
  pose proof (AN n (le_n n)) as X. specialize (N n path). destruct (compile_file E n path) as [img| |u|]; [right; exists img; reflexivity|left; reflexivity|destruct (N u eq_refl)|congruence].
Qed.
Print Assumptions C75_never_undefined_partial.

(** ** The conditions are needed *)
(** a doc comment inside an expression is looked up past the end of the table of rules *)
Theorem C75_refuted_doc_comment : compile_file (file ("packet P { @expr(1 /// one" ++ nl ++ ") u8 a; }")) 60 [] = CUndef UData.
Proof. vm_compute. reflexivity. Qed.
Print Assumptions C75_refuted_doc_comment.
(** the least 64-bit number is negated *)
Theorem C75_refuted_least_number : compile_file (file "packet P { @const(-9223372036854775808) i64 a; }") 60 [] = CUndef UOverflow.
Proof. vm_compute. reflexivity. Qed.
Print Assumptions C75_refuted_least_number.
(** one is added to the greatest *)
Theorem C75_refuted_greatest_value : compile_file (file "enum E : i64 { A = 9223372036854775807 } packet P { E e; }") 60 [] = CUndef UOverflow.
Proof. vm_compute. reflexivity. Qed.
Print Assumptions C75_refuted_greatest_value.
(** the bits of an unaligned structure are counted in an int *)
Theorem C75_refuted_bit_count : compile_file (file "@unaligned_bytes struct S { @pad(2147483647); u8 a; } packet P = S;") 60 [] = CUndef UOverflow.
Proof. vm_compute. reflexivity. Qed.
Print Assumptions C75_refuted_bit_count.
(** nested names of 512 characters and more: three fields of 200 letters *)
Fixpoint letters (n : nat) : string := match n with O => "" | Datatypes.S n => ("a" ++ letters n)%string end.
Theorem C75_refuted_long_names :
  compile_file (file ("struct A { u8 " ++ letters 200 ++ "; } struct B { A " ++ letters 200 ++ "; } packet P { B " ++ letters 200 ++ "; }")) 100 [] = CUndef UData.
Proof. vm_compute. reflexivity. Qed.
Print Assumptions C75_refuted_long_names.

(** ** Files that meet the conditions *)
Definition main75 : string :=
  "@import(""types.cnd"") packet P { @const(12345678901234567) u64 magic; Mode m; if (m == 2) { @range(-40, 125) i16 t; } else { string s max 32; } @scale(0.5) u8 v; }".
Definition types75 : string := "@import(""main.cnd"") enum Mode : u8 { Off = 0xFE, On, Auto = 2 }".
Definition small_tokens (ts : list token) : bool := forallb (fun t => (decimals (ttext t) <=? 18) && (lenN (ttext t) <=? 17)
  && negb (match_keyword t "unaligned_bytes") && negb (is_kind TDoc t) && negb (is_kind TStruct t)) ts && (lenN ts <? 100).
Lemma small_modest ts : small_tokens ts = true -> (modest ts /\ no_keyword "unaligned_bytes" ts) /\ (no_kind TDoc ts /\ no_kind TStruct ts).
Proof.
  unfold small_tokens. rewrite andb_true_iff, forallb_forall. intros (F & L). unfold modest, no_keyword, no_kind. rewrite !Forall_forall.
  assert (L2 : lenN ts < 2 ^ 60) by (eapply N.lt_trans; [apply N.ltb_lt; exact L|reflexivity]).
  split; [split; [split; [|exact L2]|]|split]; intros t T; specialize (F t T); rewrite !andb_true_iff in F; destruct F as ((((A & B) & C) & G) & H).
  - split; [lia|]. intros _. lia.
  - intros KI KE. unfold match_keyword, is_kind, same_text in C. rewrite KI, KE in C. discriminate C.
  - intros K. unfold is_kind in G. rewrite K in G. discriminate G.
  - intros K. unfold is_kind in H. rewrite K in H. discriminate H.
Qed.
Example C75_nonvacuous :
  every_file (folder main75 types75) (fun ts => (modest ts /\ no_keyword "unaligned_bytes" ts)) /\
  every_file (folder main75 types75) (fun ts => no_kind TDoc ts /\ no_kind TStruct ts) /\
  exists img, compile_file (folder main75 types75) 100 (chars "main.cnd") = CImage img.
Proof.
  assert (Q : every_file (folder main75 types75) (fun ts => (modest ts /\ no_keyword "unaligned_bytes" ts) /\ (no_kind TDoc ts /\ no_kind TStruct ts))).
  { intros q src toks RD LX. apply small_modest. unfold folder, e_read in RD. destruct (same_text q (chars "main.cnd")).
    - assert (SR : src = chars main75) by congruence. subst src. clear RD. assert (X : option_map small_tokens (lex (chars main75)) = Some true) by (vm_compute; reflexivity). rewrite LX in X. injection X. auto.
    - destruct (same_text q (chars "types.cnd")); [|discriminate]. assert (SR : src = chars types75) by congruence. subst src. clear RD.
      assert (X : option_map small_tokens (lex (chars types75)) = Some true) by (vm_compute; reflexivity). rewrite LX in X. injection X. auto. }
  split; [intros q src toks RD LX; apply (Q q src toks RD LX)|]. split; [intros q src toks RD LX; apply (Q q src toks RD LX)|]. eexists. vm_compute. reflexivity.
Qed.
Definition bits75 : string := "@unaligned_bytes struct S { u8 a : 3; @pad(5); i16 b : 12; @fill; } packet P { S s; /// about c" ++ nl ++ " u8 c; }".
Definition short_tokens (ts : list token) : bool := forallb (fun t => (decimals (ttext t) <=? 4) && ((lenN (ttext t) <=? 6) || negb (peek 0 (ttext t) =? 48) && negb (peek 0 (ttext t) =? 43) && negb (peek 0 (ttext t) =? 45))) ts && (lenN ts <=? 100).
Example C75_bits_nonvacuous : every_file (file bits75) slight /\ exists img, compile_file (file bits75) 100 [] = CImage img.
Proof.
  split; [|eexists; vm_compute; reflexivity]. intros q src toks RD LX. assert (SR : src = chars bits75) by (unfold file, e_read in RD; congruence). subst src. clear RD.
  assert (X : option_map short_tokens (lex (chars bits75)) = Some true) by (vm_compute; reflexivity). rewrite LX in X. injection X as X. unfold short_tokens in X.
  rewrite andb_true_iff, forallb_forall in X. destruct X as (F & L). split; [|lia]. apply Forall_forall. intros t T. specialize (F t T). rewrite !andb_true_iff in F. destruct F as (A & B).
  split; [lia|]. intros (sign & r & SI & TX). destruct (N.leb_spec (lenN (ttext t)) 6) as [Y|Y]; [exact Y|exfalso]. cbn [orb] in B.
  cbn in SI. destruct SI as [<-|[<-|[<-|[]]]]; destruct TX as [TX|TX]; rewrite TX in B; cbn in B; discriminate B.
Qed.
