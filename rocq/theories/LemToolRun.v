(** A schema from its source through the tool: compile, encode, decode, encode again. *)
From Coq Require Import Strings.String.
From Verif Require Import Base SpecBytes SpecVM ModelWord ModelVM ModelTrans ModelFloat SpecReal ModelText SpecText ModelParse ModelSchema ModelImage SpecImage SpecParse SpecPacket SpecMessage
  ModelJson SpecJson LemJnum SpecNest LemNestRun SpecNestJson LemNestCli ModelTool SpecTool LemTool.

Section Journey.
  Context (S : system) (fs : files) (k : schema) (toks : list token) (ts : list tree) (d : json).
  Context (src il doc msg out text : list N).
  Hypothesis (HS : holds_schema (env_of S fs) src k toks).
  Hypothesis (LB : Forall (fun n => lenN n <= 255) (all_names k)) (LN : lenN (all_names k) <= 65535) (TB : 16 + table_bytes (schema_names k) < 2 ^ 32).
  Hypothesis (DP : fold_right N.max 0 (map depth (sc_members k)) <= 8) (NS : fold_right N.max 0 (map nesting (sc_members k)) <= 31).
  Hypothesis (IL : forall fuel im, compile_file (env_of S fs) fuel src = CImage im -> lenN im < 2 ^ 62).
  Hypothesis (TO : every2 tree_ok (sc_members k) ts) (TM : members_managed (sc_members k) ts (schema_order k)) (LM : lenN (message k ts) <= 1024).
  Hypothesis (W1 : s_writable S il = true) (W2 : s_writable S msg = true) (W3 : s_writable S out = true).
  Hypothesis (R1 : s_readable S il = true) (R2 : s_readable S msg = true).
  Hypothesis (CT : contents S fs doc = Some text) (PT : s_parse S (cstr text) = Some d) (OD : object (sc_members k) ts d).
  Hypothesis (D1 : s_place S doc <> s_place S il) (D2 : s_place S msg <> s_place S il).
  Hypothesis (EM : message k ts <> [] \/ s_empty S = true).

  Definition after (im : list N) (o : list (list N * json)) : files :=
    put (put (put fs (s_place S il) im) (s_place S msg) (message k ts)) (s_place S out) (cstr (s_print S (JObj o))).
  Lemma journey : exists n im o, prints_members (sc_members k) ts o /\ im <> [] /\
    (forall fuel, (n <= fuel)%nat ->
       session S fuel fs [cmd "compile" [src; il]; cmd "encode" [il; doc; msg]; cmd "decode" [il; msg; out]] = ([0; 0; 0], Exits 0 (after im o) [])) /\
    (all_distinct (sc_members k) -> exists n, forall fuel, (n <= fuel)%nat -> cli_encode (s_libm S) fuel im (JObj o) = Exit0 (message k ts)).
  Proof.
    destruct (nested_round_trip _ _ _ _ HS LB LN TB DP NS) as (im & C & RT).
    destruct (RT (IL _ _ (C (Datatypes.S (length toks)) (Nat.lt_succ_diag_r _))) (s_libm S) ts TO TM) as (EN & n & o & PR & DE).
    destruct (EN d OD LM) as (n' & EN').
    assert (NE : im <> []) by (apply loads_some; eapply loads_il; apply (EN' n'); lia).
    exists (Nat.max (Datatypes.S (length toks)) (Nat.max n n')), im, o. split; [exact PR|]. split; [exact NE|]. split.
    2:{ intros AD. exact (EN (JObj o) (printed_object _ _ _ AD PR) LM). }
    intros fuel F. cbn [session]. rewrite (compile_runs _ _ _ _ _ _ im); [|apply C; lia|exact W1].
    assert (CD : contents S (put fs (s_place S il) im) doc = Some text).
    { unfold contents in CT |- *. destruct (s_readable S doc); [|discriminate]. now rewrite put_other. }
    rewrite (encode_runs S fuel _ il doc msg [] im text d (message k ts)); auto.
    2:{ apply bytes_there; auto. apply put_same. }
    2:{ apply EN'; lia. }
    rewrite (decode_runs S fuel _ il msg out im (message k ts) (JObj o)); auto.
    - apply bytes_there; auto. rewrite put_other by congruence. apply put_same.
    - apply bytes_there; auto. apply put_same.
    - apply DE. lia.
  Qed.

  (** One session after another *)
  Lemma session_app fuel a : forall f0 b codes f1 pr, session S fuel f0 a = (codes, Exits 0 f1 pr) ->
    session S fuel f0 (a ++ b) = (codes ++ fst (session S fuel f1 b), snd (session S fuel f1 b)).
  Proof.
    induction a as [|c a IH]; intros f0 b codes f1 pr; cbn [session app].
    - intros [= <- <- _]. cbn. now destruct (session S fuel f0 b).
    - destruct (main S fuel f0 c) as [code f2 pr2| | |]; try discriminate. destruct (session S fuel f2 a) as [cs e] eqn:H. intros [= <- ->].
      rewrite (IH _ b _ _ _ H). reflexivity.
  Qed.
  Lemma journey_back msg2 : all_distinct (sc_members k) -> s_writable S msg2 = true -> s_readable S out = true -> s_place S out <> s_place S il ->
    (forall o, prints_members (sc_members k) ts o -> s_parse S (cstr (s_print S (JObj o))) = Some (JObj o)) ->
    exists n im o, forall fuel, (n <= fuel)%nat ->
      session S fuel fs [cmd "compile" [src; il]; cmd "encode" [il; doc; msg]; cmd "decode" [il; msg; out]; cmd "encode" [il; out; msg2]] =
      ([0; 0; 0; 0], Exits 0 (put (after im o) (s_place S msg2) (message k ts)) []).
  Proof.
    intros AD W4 R3 D3 PP. destruct journey as (n & im & o & PR & NE & J & BK). destruct (BK AD) as (n2 & EN).
    exists (Nat.max n n2), im, o. intros fuel F.
    change [cmd "compile" [src; il]; cmd "encode" [il; doc; msg]; cmd "decode" [il; msg; out]; cmd "encode" [il; out; msg2]]
      with ([cmd "compile" [src; il]; cmd "encode" [il; doc; msg]; cmd "decode" [il; msg; out]] ++ [cmd "encode" [il; out; msg2]]).
    rewrite (session_app fuel _ _ [cmd "encode" [il; out; msg2]] _ _ _ (J fuel ltac:(lia))). cbn [session].
    rewrite (encode_runs S fuel (after im o) il out msg2 [] im (cstr (s_print S (JObj o))) (JObj o) (message k ts)); auto.
    - apply bytes_there; auto. unfold after. rewrite !put_other by congruence. apply put_same.
    - unfold contents. rewrite R3. unfold after. apply put_same.
    - rewrite cstr_again. auto.
    - apply EN. lia.
  Qed.
End Journey.
