(** The command line tool on compiled packets. *)
From Coq Require Import ZifyBool ZifyNat ZifyN.
From Verif Require Import Base SpecBytes LemBase ModelWord ModelFloat ModelTrans ModelVM SpecVM LemAct LemSafe LemStr ModelText SpecText
  ModelParse ModelSchema ModelImage SpecImage LemImage SpecParse LemParse SpecNames LemNames SpecPacket LemPacket SpecMessage LemSend LemMessage LemAccept
  ModelJson SpecJson LemJnum LemJson.
Ltac Zify.zify_post_hook ::= Z.div_mod_to_equations.

Lemma pointer_string img p s : string_at img p s -> text s -> c_string (skipn (N.to_nat p) img) = Ok s.
Proof.
  intros (L & S) T. rewrite <- (firstn_skipn (N.to_nat (lenN s + 1)) (skipn (N.to_nat p) img)).
  change (firstn (N.to_nat (lenN s + 1)) (skipn (N.to_nat p) img)) with (sub img p (lenN s + 1)). rewrite S, <- app_assoc. now apply c_string_text.
Qed.
Lemma names_read img ps names : Forall2 (string_at img) ps names -> Forall text names -> name_strings img ps = Ok names.
Proof.
  induction 1 as [|p s ps names S F IH]; intros T; [reflexivity|]. cbn [name_strings].
  rewrite (pointer_string _ _ _ S (Forall_inv T)). cbn [bindR]. rewrite (IH (Forall_inv_tail T)). reflexivity.
Qed.
Lemma with_image {A} names bc (k : list N -> list (list N) -> command A) : Forall text names -> lenN names <= 65535 -> 16 + table_bytes names < 2 ^ 32 -> lenN bc < 2 ^ 62 ->
  with_il (image names bc) k = k bc names.
Proof.
  intros T L B BL. unfold with_il. destruct (cli_load names bc T ltac:(lia) ltac:(lia)) as (ps & -> & F).
  rewrite slice_eq, image_len by (auto; lia). destruct (N.leb_spec (16 + table_bytes names + lenN bc) (16 + table_bytes names + lenN bc)); [|lia].
  rewrite (names_read _ _ _ F T). f_equal. apply (prog_code names bc); auto; lia.
Qed.

Lemma no_dots n : all is_alnum n -> forall acc, json_key n acc = rev acc ++ n.
Proof.
  induction 1 as [|c n A F IH]; intros acc; cbn [json_key]; [now rewrite app_nil_r|].
  destruct (N.eqb_spec c 46) as [-> |_]; [discriminate|]. rewrite IH. cbn [rev]. now rewrite <- app_assoc.
Qed.
Lemma orders_len fs : forall o, length (orders_from o fs) = length fs.
Proof. induction fs as [|f fs IH]; intros o; [reflexivity|]. cbn [orders_from]. destruct (f_big f); cbn [length]; now rewrite IH. Qed.
Lemma managed_full os fs ds : Forall2 (fun f d => datum_ok (f_content f) d) fs ds -> length os = length fs -> all_managed os fs ds -> ~ In (Values []) ds.
Proof.
  intros F. revert os. induction F as [|f d fs ds O F IH]; intros os L M; [auto|]. destruct os as [|o os]; [discriminate|]. cbn [all_managed] in M. destruct M as (M1 & M2).
  intros [-> |I]; [|eapply (IH os); eauto]. destruct (f_content f) as [ty [|n|w]|mx|w]; cbn [datum_ok managed] in *; try contradiction; destruct M1 as (M1 & _); congruence.
Qed.

Lemma all_ok k ty pos old vs t : gives_all k ty pos old vs t -> ~ byte_type ty -> Forall (fun ev : event => r_ok (snd ev) = true) t.
Proof.
  assert (EO : forall vs t, gives_each k ty vs t -> Forall (fun ev : event => r_ok (snd ev) = true) t) by (induction 1; constructor; auto).
  intros G NB. destruct G; try contradiction; [constructor|]. apply Forall_app. split; [eauto|repeat constructor; auto].
Qed.
Lemma gives_ok id fs ds t pos old : gives_fields id pos old fs ds t -> forall os, length os = length fs -> all_managed os fs ds -> Forall (fun ev : event => r_ok (snd ev) = true) t.
Proof.
  induction 1 as [pos old|pos old f fs d ds t1 t2 G GS IH]; intros os L M; [constructor|]. destruct os as [|o os]; [discriminate|]. cbn [all_managed] in M. destruct M as (M1 & M2).
  apply Forall_app. split; [|apply (IH os); auto]. destruct G; cbn [managed] in M1; repeat constructor; auto; eapply all_ok; eauto; apply M1.
Qed.

Lemma cli_round_trip E path k toks : holds_packet E path k toks -> lenN (pk_names k) <= 65535 -> 16 + table_bytes (pk_names k) < 2 ^ 32 ->
  exists im, (forall fuel, (length toks < fuel)%nat -> compile_file E fuel path = CImage im) /\
  (lenN im < 2 ^ 62 -> forall lm ds doc, Forall2 (fun f d => datum_ok (f_content f) d) (pk_fields k) ds -> describes (pk_fields k) ds doc ->
   let os := orders_from (packet_order k) (pk_fields k) in all_managed os (pk_fields k) ds ->
   let msg := wire os (pk_fields k) ds in
   (lenN msg <= 1024 -> exists n, forall fuel, (n <= fuel)%nat -> cli_encode lm fuel im doc = Exit0 msg) /\
   exists n out, document (pk_fields k) ds out /\ forall fuel, (n <= fuel)%nat -> cli_decode lm fuel im msg = Exit0 (JObj out)).
Proof.
  intros HP LN TB. destruct (compile_held E path k toks HP ltac:(lia)) as (names & ND & IN & C).
  set (id := index_of names) in *. set (bc := code (packet_instrs id k)) in *. exists (image names bc). split; [exact C|].
  destruct (fewer_bytes names ND (pk_names k)) as (LN' & TB'); [intros x; apply IN|].
  assert (TX : Forall text names). { pose proof (held_text _ _ _ _ HP) as TX. apply Forall_forall. intros x I. apply (proj1 (Forall_forall _ _) TX). now apply IN. }
  rewrite image_len by (auto; lia). intros BL lm ds doc FD DS os M msg.
  assert (FC : Forall (fun f => content_wf (f_content f)) (pk_fields k)).
  { destruct HP as (src & ws & _ & _ & _ & (os' & fw & _ & FR & _) & _). eapply fields_wf; eauto. }
  assert (FI : forall f, In f (pk_fields k) -> In (f_name f) names) by (intros f I; apply IN; unfold pk_names; apply in_or_app; left; now apply in_map).
  assert (FK : Forall (fun f => id (f_name f) < 65536) (pk_fields k)).
  { apply Forall_forall. intros f I. pose proof (index_bound names _ (FI f I)). unfold id. lia. }
  assert (NM : Forall (named names id) (pk_fields k)).
  { apply Forall_forall. intros f I. unfold named, key_name, id. pose proof (index_bound names _ (FI f I)) as IB. destruct (N.ltb_spec (index_of names (f_name f)) (lenN names)); [|lia].
    rewrite nth_index by auto. rewrite no_dots; [reflexivity|]. apply (proj1 (Forall_forall _ _) (held_names _ _ _ _ HP)). apply IN. auto. }
  assert (LO : length os = length (pk_fields k)) by apply orders_len.
  assert (NV : In (Values []) ds -> Forall (fun f => id (f_name f) < 52) (pk_fields k)) by (intros I; elim (managed_full _ _ _ FD LO M I)).
  assert (WB : wf_bytes bc) by (apply (plain_code_wf id k FC)).
  split.
  - intros L. destruct DS as (l & -> & NDL & DF).
    destruct (talk_enc names id l NDL (pk_fields k) ds os 0 (repeat 0 1024) DF NM FC FD M LO) as (t & G & P).
    assert (OK : Forall (fun ev => r_ok (snd ev) = true) t) by (eapply gives_ok; eauto).
    assert (WD : wf_bytes (repeat 0 1024)) by (apply Forall_forall; intros x I; apply repeat_spec in I; subst; lia).
    destruct (encode_steps (jh Enc names) lm id k FC FK (repeat 0 1024) (start_io (JObj l)) ds t (start_io (JObj l)) G P NV FD WD) as (n & s' & S & IL & B & CU & BO); [exact L|].
    exists (Datatypes.S n). intros fuel F. unfold cli_encode. rewrite with_image by (auto; lia).
    rewrite (steps_enc names lm bc WB ltac:(lia) n _ _ _ _ _ S eq_refl ltac:(now apply init_Inv) OK IL fuel ltac:(lia)).
    rewrite BO. cbn [N.ltb N.compare]. rewrite CU, B, slice_eq, lenN_app. fold os. fold msg.
    destruct (N.leb_spec (0 + lenN msg) (lenN msg + lenN (skipn (N.to_nat (lenN msg)) (repeat 0 1024)))); [|lia].
    f_equal. apply (sub_front [] msg).
  - destruct (talk_dec names id (pk_fields k) ds os [] [] [] NM FC FD M LO) as (t & out & G & P & D & R). cbn [app] in *. rewrite app_nil_r in R.
    destruct (decode_steps (jh Dec names) lm id k FC FK [] (start_io (JObj [])) ds t (start_io (JObj out)) G P NV FD ltac:(constructor)) as (n & s' & S & IL & B & CU & BO).
    fold os in S. fold msg in S. rewrite app_nil_r in S.
    exists (Datatypes.S n), out. split; [exact D|]. intros fuel F. unfold cli_decode. rewrite with_image by (auto; lia).
    assert (WM : wf_bytes msg) by (apply wire_wf; auto).
    rewrite (steps_dec names lm bc WB ltac:(lia) msg n _ _ _ _ _ S eq_refl eq_refl ltac:(now apply init_Inv) R IL fuel ltac:(lia)). reflexivity.
Qed.
Lemma document_describes fs ds out : document fs ds out -> NoDup (map (fun f => fold_case (f_name f)) fs) -> describes fs ds (JObj out).
Proof.
  intros D ND. exists out. split; [reflexivity|]. split.
  - replace (map (fun m : list N * json => fold_case (fst m)) out) with (map (fun f => fold_case (f_name f)) fs); [exact ND|].
    clear ND. induction D as [|f fs d ds j l S D IH]; [reflexivity|]. cbn [map fst]. now rewrite IH.
  - clear ND. assert (G : forall pre, Forall2 (fun f d => exists v, In (f_name f, v) (pre ++ out) /\ shows (f_content f) d v) fs ds); [|exact (G [])].
    induction D as [|f fs d ds j l S D IH]; intros pre; [constructor|]. constructor.
    + exists j. split; [|exact S]. apply in_or_app. right. now left.
    + specialize (IH (pre ++ [(f_name f, j)])). rewrite <- app_assoc in IH. exact IH.
Qed.
