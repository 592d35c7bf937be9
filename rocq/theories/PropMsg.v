(** Properties of whole messages: C12, C13. *)
From Verif Require Import Base ModelWord ModelTrans ModelFloat ModelVM SpecBytes LemBase SpecVM SpecMsg LemAct LemArr LemPrefix LemLock Samples.
Ltac Zify.zify_post_hook ::= Z.div_mod_to_equations.

(** ** C13 Decoding depends only on the bytes it consumed *)

(** If a decode succeeds and ends at some bit position, then decoding any other packet of the same length with
    the same bytes up to that position succeeds too, after the same calls with the same answers, at the same
    position, with everything else but the packet the same as well. *)
Theorem C13_unread_bytes_do_not_matter_partial :
  forall (H : Type) (host : H -> request -> H * reply) lm bc data data' (h : H) fuel s' h' t,
  wf_bytes bc -> lenN bc < 2 ^ 62 -> wf_bytes data -> wf_bytes data' ->
  run host lm bc fuel (init Dec data) h = (Done EOk s', h', t) ->
  lenN data' = lenN data -> (forall i, 8 * i < position s' -> nthN data' i = nthN data i) ->
  exists s'', run host lm bc fuel (init Dec data') h = (Done EOk s'', h', t) /\
    position s'' = position s' /\ same_but_packet s' s''.
Proof.
  intros H host lm bc data data' h fuel s' h' t WB BL WD WD' R HL HA.
  destruct (N.le_gt_cases (position s') (8 * lenN data)) as [HP|HP].
  - destruct (run_sim host lm bc BL WB ((position s' + 7) / 8) (lenN data) (lenN data') ltac:(lia) ltac:(lia) fuel
      (init Dec data) (init Dec data') h s' h' t) as (s'' & (b & -> & _) & R2); auto.
    + repeat split; cbn; auto; lia.
    + exists data'. split; [reflexivity|]. split; [exact WD|]. split; [exact WD'|]. split; [reflexivity|]. split; [reflexivity|].
      intros i HI. symmetry. apply HA. lia.
    + lia.
    + eexists. split; [exact R2|]. split; reflexivity.
  - assert (data' = data) as -> by (apply nthN_ext; [auto|]; intros i HI; apply HA; lia).
    exists s'. split; [exact R|]. split; [reflexivity|]. unfold same_but_packet. destruct s'. reflexivity.
Qed.
Print Assumptions C13_unread_bytes_do_not_matter_partial.
(** A packet with a whole message and three more bytes *)
Example C13_nonvacuous : exists s' s'' t, position s' <= 8 * lenN out1 /\ (5 < length t)%nat /\
  run quiet lm0 prog1 100 (init Dec (out1 ++ [1; 2; 3])) tt = (Done EOk s', tt, t) /\
  run quiet lm0 prog1 100 (init Dec (out1 ++ [7; 8; 9])) tt = (Done EOk s'', tt, t).
Proof.
  eexists. eexists. eexists. split; [|split; [|split; vm_compute; reflexivity]]; vm_compute; [discriminate|lia].
Qed.

(** Nothing after the end position has to be there at all, unless the program reads to the end of the packet:
    any beginning of the packet that contains what was consumed decodes the same way. *)
Theorem C13_prefix_suffices_partial :
  forall (H : Type) (host : H -> request -> H * reply) lm bc data n (h : H) fuel s' h' t,
  wf_bytes bc -> lenN bc < 2 ^ 62 -> wf_bytes data ->
  run host lm bc fuel (init Dec data) h = (Done EOk s', h', t) ->
  during host lm bc (init Dec data) h (fun s => ~ reading_to_end bc s) ->
  n <= lenN data -> position s' <= 8 * n ->
  exists s'', run host lm bc fuel (init Dec (firstn (N.to_nat n) data)) h = (Done EOk s'', h', t) /\
    position s'' = position s' /\ same_but_packet s' s''.
Proof.
  intros H host lm bc data n h fuel s' h' t WB BL WD R HN HL HP.
  assert (L2 : lenN (firstn (N.to_nat n) data) = n) by (unfold lenN in *; rewrite firstn_length; lia).
  destruct (run_sim host lm bc BL WB ((position s' + 7) / 8) (lenN data) n ltac:(lia) ltac:(lia) fuel
      (init Dec data) (init Dec (firstn (N.to_nat n) data)) h s' h' t) as (s'' & (b & -> & _) & R2); auto.
  - repeat split; cbn; auto; lia.
  - exists (firstn (N.to_nat n) data). split; [reflexivity|]. split; [exact WD|].
    split; [apply Forall_forall; intros x HX; apply (proj1 (Forall_forall _ _) WD); rewrite <- (firstn_skipn (N.to_nat n) data); apply in_or_app; auto|].
    split; [reflexivity|]. split; [exact L2|].
    intros i HI. rewrite nthN_firstn by lia. destruct (N.ltb_spec i n); [reflexivity|lia].
  - right. intros s1 h1 R1 I1. specialize (HN s1 h1 R1 I1). split.
    + intros X. apply HN. now left.
    + apply Forall_forall. intros [b k] HX E. apply HN. right. exists b. cbn [snd] in E. subst k. exact HX.
  - lia.
  - eexists. split; [exact R2|]. split; reflexivity.
Qed.
Print Assumptions C13_prefix_suffices_partial.
Definition to_endb (bc : list N) (s : st) : bool :=
  negb (opcode_at bc s =? 0x3A) && forallb (fun f => negb (snd f =? 0xFFFFFFFF)) (loops s).
Example C13_prefix_nonvacuous : exists s' s'' t, position s' <= 8 * lenN out1 /\ (5 < length t)%nat /\
  run quiet lm0 prog1 100 (init Dec (out1 ++ [1; 2; 3])) tt = (Done EOk s', tt, t) /\
  during quiet lm0 prog1 (init Dec (out1 ++ [1; 2; 3])) tt (fun s => ~ reading_to_end prog1 s) /\
  run quiet lm0 prog1 100 (init Dec out1) tt = (Done EOk s'', tt, t).
Proof.
  eexists. eexists. eexists.
  split; [|split; [|split; [vm_compute; reflexivity|split; [|vm_compute; reflexivity]]]]; [vm_compute; discriminate|vm_compute; lia|].
  apply (checked_during _ _ _ 100 _ _ (to_endb prog1)); [vm_compute; reflexivity|].
  unfold to_endb. intros s HX. apply andb_prop in HX. destruct HX as [H1 H2]. rewrite forallb_forall in H2.
  intros [X|[b X]]; [rewrite X in H1; discriminate|]. specialize (H2 _ X). discriminate.
Qed.

(** Both properties are about decodes that succeed. A decode that is refused because of a field stops before
    that field: changing a byte at the position where it ended changes the result. *)
Theorem C13_refuted_for_failing_decodes : exists bc data data' e s' t,
  run quiet lm0 bc 10 (init Dec data) tt = (Done e s', tt, t) /\ e <> EOk /\ lenN data' = lenN data /\
  (forall i, 8 * i < position s' -> nthN data' i = nthN data i) /\
  exists s'' t', run quiet lm0 bc 10 (init Dec data') tt = (Done EOk s'', tt, t').
Proof.
  exists [0x40; 1; 0; 0x10; 7], [6], [7]. eexists. eexists. eexists. split; [vm_compute; reflexivity|].
  split; [discriminate|]. split; [reflexivity|]. split; [intros i HI; vm_compute in HI; destruct i; discriminate|].
  eexists. eexists. vm_compute. reflexivity.
Qed.
Print Assumptions C13_refuted_for_failing_decodes.

(** ** C12 Decoding what was encoded *)

(** A host supplies values, the program encodes them successfully. Then the same program decodes the resulting
    buffer successfully, ends at the same position, and makes the same calls in the same order, each telling the
    value that was supplied at that call (normalised to what the field can carry, see [tells] in SpecMsg.v);
    in addition it reports the constants it checked. The decoding host must answer queries with the value the
    encoding host gave. Excluded are: instructions that disturb bits already written (computed fields and
    byte-order changes in the middle of a byte, see C04), bit fields cut off at the end of the buffer, computed values
    that do not fit their field, and values that cannot be converted back ([comes_back]). *)
Theorem C12_decoding_reports_what_was_encoded_partial :
  forall (H G : Type) (host : H -> request -> H * reply) (host2 : G -> request -> G * reply) (like : list event -> G -> Prop)
    lm bc data (h : H) (g : G) fuel s' h' t,
  wf_bytes bc -> lenN bc < 2 ^ 62 -> wf_bytes data -> host_refuses_cleanly host ->
  run host lm bc fuel (init Enc data) h = (Done EOk s', h', t) -> position s' <= 8 * lenN data ->
  during host lm bc (init Enc data) h (fun s => ~ emits_mid_byte bc s /\ ~ switches_mid_byte bc s /\
    ~ runs_out_of_bits bc s /\ ~ computed_too_big bc s) ->
  Forall comes_back t -> cooperates host2 like -> like t g ->
  exists s2 g' t', run host2 lm bc fuel (init Dec (buf s')) g = (Done EOk s2, g', t') /\
    position s2 = position s' /\ buf s2 = buf s' /\ reports t t'.
Proof.
  intros H G host host2 like lm bc data h g fuel s' h' t WB BL WD HR X PE HD CB CO HL.
  destruct (encode_decode host host2 like lm bc data h fuel s' h' t g WB BL WD HR X PE HD CB CO HL) as (s2 & g' & t' & Y & -> & RP & _).
  eexists. exists g', t'. split; [exact Y|]. split; [reflexivity|]. split; [reflexivity|exact RP].
Qed.
Print Assumptions C12_decoding_reports_what_was_encoded_partial.

(** Only the bytes the encoder reported as written are needed, if the program does not read to the end of the packet. *)
Theorem C12_decoding_the_encoded_bytes_partial :
  forall (H G : Type) (host : H -> request -> H * reply) (host2 : G -> request -> G * reply) (like : list event -> G -> Prop)
    lm bc data (h : H) (g : G) fuel s' h' t n,
  wf_bytes bc -> lenN bc < 2 ^ 62 -> wf_bytes data -> host_refuses_cleanly host ->
  run host lm bc fuel (init Enc data) h = (Done EOk s', h', t) -> position s' <= 8 * n -> n <= lenN data ->
  during host lm bc (init Enc data) h (fun s => ~ emits_mid_byte bc s /\ ~ switches_mid_byte bc s /\
    ~ runs_out_of_bits bc s /\ ~ computed_too_big bc s /\ ~ reading_to_end bc s) ->
  Forall comes_back t -> cooperates host2 like -> like t g ->
  exists s2 g' t', run host2 lm bc fuel (init Dec (firstn (N.to_nat n) (buf s'))) g = (Done EOk s2, g', t') /\
    position s2 = position s' /\ reports t t'.
Proof.
  intros H G host host2 like lm bc data h g fuel s' h' t n WB BL WD HR X PE PN HD CB CO HL.
  destruct (encode_decode host host2 like lm bc data h fuel s' h' t g WB BL WD HR X ltac:(lia)) as (s2 & g' & t' & Y & -> & RP & RD); auto.
  { intros s1 h1 R1 I1. destruct (HD s1 h1 R1 I1) as (A1 & A2 & A3 & A4 & _). auto. }
  destruct (encode_buffer host lm bc data h fuel s' h' t WB BL WD HR X) as [WF LF].
  destruct (C13_prefix_suffices_partial G host2 lm bc (buf s') n g fuel _ g' t' WB BL WF Y) as (s2 & Z & P2 & _).
  - intros d gd R1 I1. destruct (RD d gd R1) as (s1 & h1 & R & ->). destruct (HD s1 h1 R I1) as (_ & _ & _ & _ & A). exact A.
  - lia.
  - exact PE.
  - exists s2, g', t'. split; [exact Z|]. split; [exact P2|exact RP].
Qed.
Print Assumptions C12_decoding_the_encoded_bytes_partial.

(** A host of the kind required: one that gives the answers of the encoding host again. *)
Theorem C12_replayed_partial :
  forall (H : Type) (host : H -> request -> H * reply) lm bc data (h : H) fuel s' h' t,
  wf_bytes bc -> lenN bc < 2 ^ 62 -> wf_bytes data -> host_refuses_cleanly host ->
  run host lm bc fuel (init Enc data) h = (Done EOk s', h', t) -> position s' <= 8 * lenN data ->
  during host lm bc (init Enc data) h (fun s => ~ emits_mid_byte bc s /\ ~ switches_mid_byte bc s /\
    ~ runs_out_of_bits bc s /\ ~ computed_too_big bc s) ->
  Forall comes_back t ->
  exists s2 g' t', run replay lm bc fuel (init Dec (buf s')) (map snd t) = (Done EOk s2, g', t') /\
    position s2 = position s' /\ buf s2 = buf s' /\ reports t t'.
Proof.
  intros H host lm bc data h fuel s' h' t WB BL WD HR X PE HD CB.
  exact (C12_decoding_reports_what_was_encoded_partial H (list reply) host replay (fun t g => g = map snd t) lm bc data h (map snd t) fuel s' h' t
    WB BL WD HR X PE HD CB replay_cooperates eq_refl).
Qed.
Print Assumptions C12_replayed_partial.


(** ** C12, continued: the hypotheses are met, and what happens without them *)
Definition cleanb (bc : list N) (s : st) : bool :=
  let op := opcode_at bc s in
  (negb (op =? 0x65) || (boff s =? 0)) && (negb ((op =? 1) || (op =? 2)) || (boff s =? 0)) &&
  (position s + bit_width bc s <=? 8 * lenN (buf s)) &&
  (negb (op =? 0x65) || match stk s with v :: _ => v <? 2 ^ (8 * field_bytes (nthN bc (ip s + 1))) | [] => true end) &&
  to_endb bc s.
Lemma clean_spec bc s : cleanb bc s = true -> ~ emits_mid_byte bc s /\ ~ switches_mid_byte bc s /\
    ~ runs_out_of_bits bc s /\ ~ computed_too_big bc s /\ ~ reading_to_end bc s.
Proof.
  unfold cleanb, to_endb. intros X. apply andb_prop in X. destruct X as [X T]. apply andb_prop in X. destruct X as [X C].
  apply andb_prop in X. destruct X as [X B]. apply andb_prop in X. destruct X as [E W].
  split; [|split; [|split; [|split]]].
  - intros [A1 A2]. rewrite A1 in E. cbn in E. lia.
  - intros [A1 A2]. destruct A1 as [A1|A1]; rewrite A1 in W; cbn in W; lia.
  - intros [_ A2]. lia.
  - intros (A1 & _ & _ & v & r & A3 & A4). rewrite A1, A3 in C. change (negb (101 =? 101) || ?x) with x in C. lia.
  - apply andb_prop in T. destruct T as [H1 H2]. rewrite forallb_forall in H2.
    intros [A|[b A]]; [rewrite A in H1; discriminate|]. specialize (H2 _ A). discriminate.
Qed.
(** The message of Samples.v: bit fields, padding, an integer, a string, an array, a computed field and a checksum *)
Example C12_nonvacuous : exists s' h' t, host_refuses_cleanly script /\
  run script lm0 prog1 100 (init Enc (repeat 0 20)) script1 = (Done EOk s', h', t) /\ position s' <= 8 * 15 /\
  during script lm0 prog1 (init Enc (repeat 0 20)) script1 (fun s => ~ emits_mid_byte prog1 s /\ ~ switches_mid_byte prog1 s /\
    ~ runs_out_of_bits prog1 s /\ ~ computed_too_big prog1 s /\ ~ reading_to_end prog1 s) /\
  Forall comes_back t /\ (6 < length t)%nat /\
  exists s2 t', run replay lm0 prog1 100 (init Dec (firstn 15 (buf s'))) (map snd t) = (Done EOk s2, [], t').
Proof.
  eexists. eexists. eexists. split; [|split; [vm_compute; reflexivity|split; [vm_compute; discriminate|split; [|split; [|split; [cbn [length]; lia|]]]]]].
  - intros h rq. destruct h as [|r h]; [reflexivity|]. cbn. auto.
  - apply (checked_during _ _ _ 100 _ _ (cleanb prog1)); [vm_compute; reflexivity|]. apply clean_spec.
  - repeat (apply Forall_cons; [cbn; first [exact I|reflexivity|lia|intros raw [= <-]; eexists; reflexivity]|]). apply Forall_nil.
  - eexists. eexists. vm_compute. reflexivity.
Qed.

(** Without them the property fails.  A bit field that does not fit is cut off without an error: nine bits are
    encoded into one byte, and the value read back is another one. *)
Theorem C12_refuted_cut_off_bits : exists bc v s' t s2 t2 w,
  run script lm0 bc 10 (init Enc [0]) [say v] = (Done EOk s', [], t) /\
  run script lm0 bc 10 (init Dec (buf s')) [nod] = (Done EOk s2, [], t2) /\
  map (fun ev => rq_pl (fst ev)) t2 = [PInt W8 w] /\ v < 2 ^ 9 /\ w <> v.
Proof.
  exists [0x20; 0; 0; 9], 0x1FF. eexists. eexists. eexists. eexists. eexists.
  split; [vm_compute; reflexivity|]. split; [vm_compute; reflexivity|]. split; [vm_compute; reflexivity|]. split; [reflexivity|discriminate].
Qed.
Print Assumptions C12_refuted_cut_off_bits.
(** An optional string the host does not supply leaves no trace in the message, but decoding reads one: the byte
    of the next field is taken for the string. *)
Theorem C12_refuted_skipped_string : exists bc s' t,
  run script lm0 bc 10 (init Enc [0; 0]) [refuse; say 7; say 0] = (Done EOk s', [], t) /\
  map (fun ev => rq_key (fst ev)) t = [1; 2; 3] /\
  exists s2 t2, run quiet lm0 bc 10 (init Dec (buf s')) tt = (Done EOob s2, tt, t2).
Proof.
  exists [0x4A; 0x30; 1; 0; 8; 0; 0x10; 2; 0; 0x10; 3; 0]. eexists. eexists.
  split; [vm_compute; reflexivity|]. split; [vm_compute; reflexivity|]. eexists. eexists. vm_compute. reflexivity.
Qed.
Print Assumptions C12_refuted_skipped_string.
