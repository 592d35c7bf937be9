(** C60: every received byte string is read as one message, or refused. *)
From Coq Require Import Strings.String.
From Verif Require Import Base SpecBytes ModelWord ModelFloat ModelTrans ModelVM SpecVM ModelText SpecText ModelParse ModelSchema
  ModelImage SpecImage LemImage SpecParse LemParse SpecNames SpecPacket LemPacket SpecMessage LemMessage SpecNest LemNest LemNestFile LemNestWire LemNestRun
  SpecRead LemReadBytes LemReadVM LemRead Samples PropPacket PropNest.

(** ** C60 Every received byte string is read as one message, or refused *)

(** Whatever bytes arrive, decoding them with the compiled packet comes to an end, in one of three ways. It reports a message with
    which the bytes begin - member by member, with nothing read behind it -, or it stops with "out of bounds" on bytes that are the
    beginning of a message and need more to be one, or with "validation" on bytes that no continuation makes begin with a message. *)
Theorem C60_reads_partial : forall E path k toks, holds_schema E path k toks ->
  Forall (fun n => lenN n <= 255) (all_names k) -> lenN (all_names k) <= 65535 -> 16 + table_bytes (schema_names k) < 2 ^ 32 ->
  fold_right N.max 0 (map depth (sc_members k)) <= 8 -> every (definite (lenN (schema_names k))) (sc_members k) ->
  exists im pr id, (forall fuel, (length toks < fuel)%nat -> compile_file E fuel path = CImage im) /\
    load_il im = Ok (Loaded pr) /\
    (forall n, In n (schema_names k) -> exists p, get_key_name im pr (id n) = Ok (Some p) /\ string_at im p n) /\
    let bc := sub im (pr_bytecode pr) (pr_bytecode_len pr) in
    forall H (host : H -> request -> H * reply) lm data h, listens host -> wf_bytes data ->
    exists e s' h' t n, (forall fuel, (n <= fuel)%nat -> run host lm bc fuel (init Dec data) h = (Done e s', h', t)) /\
      (e = EOk /\ (exists ts rest z, every2 tree_ok (sc_members k) ts /\ data = message k ts ++ rest /\
         said_members Dec id [] 0 data (sc_members k) ts z t /\ position s' = 8 * lenN (message k ts)) \/
       e = EOob /\ incomplete k data \/
       e = EValidation /\ malformed k data).
Proof.
  intros E path k toks HS LB UL TB DP DF. destruct (schema_wire E path k toks HS LB UL TB) as (im & pr & id & C & L & NM & IB & BC).
  exists im, pr, id. split; [exact C|]. split; [exact L|]. split; [exact NM|]. cbv zeta. rewrite BC.
  assert (MP : every member_plain (sc_members k)) by (destruct HS as (src & ws & _ & _ & _ & SR); eapply schema_read_plain; eauto).
  assert (NL : lenN (schema_names k) <= 65536) by (unfold all_names in UL; rewrite LemBase.lenN_app in UL; Lia.lia).
  intros H host lm data h LI WD. destruct (whole_reads host lm id k (lenN (schema_names k)) LI MP IB NL DP DF data h WD)
    as [(ts & rest & z & s' & h' & t & n & TO & ED & SD & _ & R & P)|[((n & s' & h' & t & R) & X)|((n & s' & h' & t & R) & X)]].
  - exists EOk, s', h', t, n. split; [exact R|]. left. split; [reflexivity|]. exists ts, rest, z. auto.
  - exists EOob, s', h', t, n. auto.
  - exists EValidation, s', h', t, n. auto.
Qed.
Print Assumptions C60_reads_partial.

(** No two messages of a schema begin alike: the message found, and what is left behind it, are determined by the bytes. *)
Theorem C60_unique : forall k ts ts' rest rest', every2 tree_ok (sc_members k) ts -> every2 tree_ok (sc_members k) ts' ->
  message k ts ++ rest = message k ts' ++ rest' -> ts = ts' /\ rest = rest'.
Proof. intros k ts ts' rest rest' A B E. exact (members_apart _ _ _ _ _ _ A B E). Qed.
Print Assumptions C60_unique.
(** And so each of the three endings rules out the others. *)
Theorem C60_exclusive : forall k data,
  let complete := exists ts rest, every2 tree_ok (sc_members k) ts /\ data = message k ts ++ rest in
  ~ (complete /\ incomplete k data) /\ ~ (complete /\ malformed k data) /\ ~ (incomplete k data /\ malformed k data).
Proof.
  intros k data. cbv zeta. split; [|split].
  - intros ((ts & rest & A & ED) & (more & ts' & NE & B & EM)). rewrite ED, <- app_assoc in EM. rewrite <- (app_nil_r (message k ts')) in EM.
    apply members_apart in EM as (_ & EM); auto. destruct rest, more; discriminate || easy.
  - intros ((ts & rest & A & ED) & M). apply (M [] ts rest A). rewrite app_nil_r. exact ED.
  - intros ((more & ts & NE & A & EM) & M). apply (M more ts [] A). rewrite app_nil_r. exact EM.
Qed.
Print Assumptions C60_exclusive.

Definition src60 : string :=
  "struct Item { bool on; @be u16 v; }
   packet Msg { u8 id; Item xs[] prefix u8; string s prefix u16; bool ok[2]; }".
Definition item60 : list member := [Flat (plain49 [] (Scalar 0x1A One) "on"); Flat (plain49 [true] (Scalar 0x11 One) "v")].
Definition schema60 : schema := {| sc_structs := [(chars "Item", item60)]; sc_orders := []; sc_name := chars "Msg";
  sc_members := [Flat (plain49 [] (Scalar 0x10 One) "id"); Nest [] (Counted 1) (chars "xs") item60; Flat (plain49 [] (CountedText 2) "s");
    Flat (plain49 [] (Scalar 0x1A (Fixed 2)) "ok")] |}.
Definition listened (src : string) (data : list N) : option (err * N) :=
  match run quiet lm0 (program_of (chars src)) 300 (init Dec data) tt with (Done e s, _, _) => Some (e, position s) | _ => None end.
Example C60_reads_nonvacuous :
  holds_schema (file src60) [] schema60 (toks_of src60) /\
  Forall (fun n => lenN n <= 255) (all_names schema60) /\ lenN (schema_names schema60) = 7 /\ 16 + table_bytes (schema_names schema60) < 2 ^ 32 /\
  fold_right N.max 0 (map depth (sc_members schema60)) = 1 /\ every (definite 7) (sc_members schema60) /\ every (definite 18) (sc_members schema57) /\
  listens quiet /\
  (* a message and three more bytes *)
  listened src60 [9; 2; 1; 0; 5; 0; 255; 254; 2; 0; 72; 105; 1; 0; 7; 7; 7] = Some (EOk, 8 * 14) /\
  (* the same, cut off in the second structure, and inside the string *)
  listened src60 [9; 2; 1; 0; 5; 0; 255] = Some (EOob, 8 * 6) /\
  listened src60 [9; 2; 1; 0; 5; 0; 255; 254; 2; 0; 72] = Some (EOob, 8 * 8) /\
  (* and with a boolean that is neither 0 nor 1 *)
  listened src60 [9; 2; 1; 0; 5; 3; 255; 254; 2; 0; 72; 105; 1; 0] = Some (EValidation, 8 * 5).
Proof.
  split.
  { assert (L2 : literal (chars "2") 2) by (apply (lit_dec _ [2]); repeat constructor).
    assert (N : forall env c s a b, content_read c a b -> member_read env (Flat (plain49 [] c s)) (a ++ [(TIdentifier, chars s)] ++ b ++ [sign TSemicolon ";"])).
    { intros. apply flat_read. exists [], a, b. split; [constructor|]. split; auto. }
    exists (chars src60), (removelast (map word_of (toks_of src60))). split; [reflexivity|]. split; [vm_compute; reflexivity|]. split; [vm_compute; reflexivity|].
    eexists _, [], _. split; [|split; [|split; [|split; [|split]]]].
    - eapply structs_more with (sc := []).
      + eapply members_more; [apply N; apply (read_one 0x1A "bool"); member|]. eapply members_more; [|apply members_none].
        apply flat_read. eexists [sign TAt "@"; ident "be"], _, _. split; [apply ord_more; [member|constructor]|]. split; [apply (read_one 0x11 "u16"); member|reflexivity].
      + intros [].
      + vm_compute. intuition discriminate.
      + vm_compute. repeat constructor; cbn; intuition discriminate.
      + now left.
      + apply structs_none.
    - constructor.
    - eapply members_more; [apply N; apply (read_one 0x10 "u8"); member|].
      eapply members_more; [eapply (nest_read _ [] [] (Counted 1)); [constructor|left; reflexivity|apply (ext_counted 1 "u8"); member]|].
      eapply members_more; [apply N; apply (read_text_counted 2 "u16"); member|].
      eapply members_more; [apply N; apply (read_fixed 0x1A "bool" (chars "2") 2); [member|exact L2|reflexivity]|].
      apply members_none.
    - vm_compute. intuition discriminate.
    - vm_compute. repeat constructor; cbn; intuition discriminate.
    - vm_compute. reflexivity. }
  split; [vm_compute; repeat constructor; discriminate|]. split; [vm_compute; reflexivity|]. split; [vm_compute; reflexivity|]. split; [vm_compute; reflexivity|].
  split; [vm_compute; intuition discriminate|]. split; [vm_compute; intuition discriminate|]. split; [intros h rq; repeat split|].
  repeat split; vm_compute; reflexivity.
Qed.

(** *** Where it fails *)

(** Full property: the conclusion of [C60_reads_partial] for every schema of C57.  It fails for two of the contents that [definite] leaves out.

    A string of at most so many characters: after the last one allowed, the byte in the terminator's place is dropped whatever it is.
    The decoder is content with bytes that no message begins with. *)
Definition schema60t : schema := {| sc_structs := []; sc_orders := []; sc_name := chars "P"; sc_members := [Flat (plain49 [] (Text 2) "s"); Flat (plain49 [] (Scalar 0x10 One) "x")] |}.
Theorem C60_refuted_text :
  listened "packet P { string s max 2; u8 x; }" [65; 66; 67; 5] = Some (EOk, 8 * 4) /\ malformed schema60t [65; 66; 67; 5].
Proof.
  split; [vm_compute; reflexivity|]. intros more [|[[v|vs|l]|gs] [|[[v2|vs2|l2]|gs2] [|? ?]]] rest K; cbn [schema60t sc_members every2 tree_ok plain49 f_content datum_ok] in K; try tauto.
  destruct K as ((T & L) & _). unfold message, members_bytes, schema60t. cbn [sc_members chain2 member_bytes f_big plain49 f_orders last f_content datum_bytes fst]. rewrite <- !app_assoc.
  destruct l as [|a [|b [|c l]]]; cbn [app]; intros X.
  - discriminate X.
  - discriminate X.
  - discriminate X.
  - rewrite !LemBase.lenN_cons in L. Lia.lia.
Qed.
Print Assumptions C60_refuted_text.
(** An array with a counter of four bytes: the largest count is taken to mean "as many as there are". Four bytes 255 and two numbers are
    read as an array of two, although the counter says more than four thousand million. *)
Theorem C60_refuted_wide_counter :
  listened "packet P { i8 xs[] prefix u32; }" [255; 255; 255; 255; 1; 2] = Some (EOk, 8 * 6) /\
  forall vs rest, [255; 255; 255; 255; 1; 2] = bytes_of LE 4 (lenN vs) ++ numbers LE 0x14 vs ++ rest -> lenN vs < 2 ^ 32 -> False.
Proof.
  split; [vm_compute; reflexivity|]. intros vs rest E L. pose proof (f_equal lenN E) as X. rewrite !LemBase.lenN_app, LemBase.lenN_bytes_of, numbers_len in X.
  change (lenN [255; 255; 255; 255; 1; 2]) with 6 in X. change (width 20) with 1 in X. change (N.of_nat 4) with 4 in X.
  assert (B : lenN vs <= 2) by Lia.lia. change [255; 255; 255; 255; 1; 2] with (bytes_of LE 4 (2 ^ 32 - 1) ++ [1; 2]) in E. apply bytes_apart in E as (E & _); [|reflexivity|exact L]. rewrite <- E in B. now apply B.
Qed.
Print Assumptions C60_refuted_wide_counter.
