(** What the compiler's parser accepts: definitions, imports, files. *)
From Coq Require Import Strings.String Lia ZifyBool ZifyN ZifyNat.
From Verif Require Import Base SpecBytes LemBase ModelFloat SpecVM ModelVM ModelImage ModelText SpecText LemText ModelNames ModelParse ModelSchema SpecParse SpecPacket SpecMessage SpecSource
  LemStr LemLex LemParse LemSource LemAccept LemCompile LemEnds LemErr SpecGrammar LemGrammar LemGrammarField LemGrammarStmt.
Ltac Zify.zify_post_hook ::= Z.div_mod_to_equations.
Open Scope N_scope.

Definition known_of (p : pst) : known :=
  {| k_structs := map fst (p_structs p); k_enums := map listed (p_enums p); k_files := p_imports p; k_packets := p_packets p; k_packed := p_unaligned p |}.
(** Between definitions *)
Definition top (p : pst) : Prop := p_sname p = None /\ p_bitmode p = false /\ Forall text (p_imports p).
Definition moved (p q : pst) (k : known) : Prop := known_of q = k /\ p_path q = p_path p /\ p_depth q = p_depth p /\ top q.
Lemma moved_same p q : att q = att p -> top p -> moved p q (known_of p).
Proof. unfold att, moved, top, known_of. intros X (T1 & T2 & T3). injection X as -> -> -> -> -> _ -> -> -> ->. auto 8. Qed.
Lemma moved_before p r q k : moved p r k -> att q = att r -> moved p q k.
Proof. unfold att, moved, top, known_of. intros (<- & Y2 & Y3 & T1 & T2 & T3) X. injection X as -> -> -> -> -> _ -> -> -> ->. auto 8. Qed.
Lemma moved_then p r q k k' : moved p r k -> moved r q k' -> moved p q k'.
Proof. unfold moved. intros (A & B & C & D) (A' & B' & C' & D'). repeat (split; [congruence|]). exact D'. Qed.
Lemma moved_after p r q k : att r = att p -> moved r q k -> moved p q k.
Proof. unfold moved, att. intros X. injection X. intros. destruct H as []. intuition congruence. Qed.
Lemma known_att p q : att q = att p -> known_of q = known_of p.
Proof. unfold att, known_of. intros X. injection X as -> -> -> _ _ _ -> _ -> _. reflexivity. Qed.
Lemma top_att p q : att q = att p -> top p -> top q.
Proof. unfold att, top. intros X. injection X as _ _ -> _ -> _ _ _ _ ->. auto. Qed.

(** ** Enumerations *)
Lemma members_reads f : forall vals next, reads (enum_loop f (map fst vals) vals next) (fun l ws => members vals next ws l).
Proof.
  induction f as [|f IH]; intros vals next p a q H E0 G; [discriminate|]. cbn [enum_loop] in H. bnd H. bnd H. set (t := p_cur p) in *.
  destruct (is_kind TRbrace t || is_kind TEof t || p_err p).
  { prim H. split; [auto|]. split; [auto|]. chain. constructor. }
  destruct (is_kind TDoc t) eqn:KD.
  { bnd H. advk M KD. sub H (IH _ _). split; [auto|]. split; [congruence|]. chain. cbn [app]. rewrite app_nil_r. now apply mb_doc. }
  bnd H. con M. cbv zeta in H.
  assert (TX : text (ttext t)) by (destruct G as (_ & _ & _ & W); apply W; rewrite SS; now left).
  destruct (strtab_add (map fst vals) (ttext t)) as (ns & i) eqn:SA. cbn [fst] in H. quiet H. apply (add_new _ _ _ _ TX SA) in B as (NI & ->). bnd H. bnd H.
  assert (VL : good r0 /\ att r0 = att r /\ exists w, stream r = w ++ stream r0 /\ (w = [] /\ v1 = next \/ exists s, w = [mark TEquals; num s] /\ denotes s v1)).
  { destruct (is_kind TEquals (p_cur r)) eqn:KE.
    - bnd M. advk M0 KE. sub M i64_reads. destruct R as (s & -> & PN). split; [auto|]. split; [congruence|]. exists [mark TEquals; num s]. split; [rewrite SS0, SS1; reflexivity|].
      right. exists s. split; [reflexivity|]. intros x X. apply int_text_value in X. congruence.
    - prim M. split; [auto|]. split; [auto|]. exists []. auto. }
  clear M. destruct VL as (G1 & A1 & vw & SS1 & VL). quiet H. destruct (v1 =? 2 ^ 63 - 1)%Z; [discriminate|]. bnd H. bnd H.
  assert (CM : good r1 /\ att r1 = att r0 /\ exists w, stream r0 = w ++ stream r1 /\ (w = [] \/ w = [mark TComma])).
  { apply when_inv in M as [(KC & M)|(_ & ->)]; [advk M KC; split; [auto|]; split; [auto|]; exists [mark TComma]; auto|split; [auto|]; split; [auto|]; exists []; auto]. }
  clear M. destruct CM as (G2 & A2 & cw & SS2 & CM). replace (map fst vals ++ [ttext t]) with (map fst (vals ++ [(ttext t, v1)])) in H by now rewrite map_app.
  sub H (IH _ _). split; [auto|]. split; [congruence|]. chain. rewrite app_nil_r.
  assert (NV : ~ In v1 (map snd vals)).
  { intros X. apply in_map_iff in X as (x & EX & IX). assert (existsb (fun y : list N * Z => (snd y =? v1)%Z) vals = true) by (apply existsb_exists; exists x; split; [auto|lia]). congruence. }
  destruct VL as [(-> & ->)|(s & -> & DN)].
  - cbn [app]. now apply mb_auto.
  - cbn [app]. now apply (mb_given _ _ _ s v1).
Qed.
Lemma fresh_of p n : some (find_struct (p_structs p) n) || some (find_enum (p_enums p) n) = false -> fresh (known_of p) n.
Proof.
  intros H. apply orb_false_iff in H as (A & B). split; cbn.
  - apply struct_unfound. destruct (find_struct _ _); [discriminate|reflexivity].
  - apply enum_unfound. destruct (find_enum _ _); [discriminate|reflexivity].
Qed.
Definition defines {A} (m : par A) (R : known -> list word -> known -> Prop) : Prop :=
  forall p a q, m p = POk a q -> p_err q = false -> good p -> top p -> good q /\ exists k, moved p q k /\ ate p q (fun ws => R (known_of p) ws k).
Lemma enum_defines f : defines (parse_enum f) (fun k ws => definition k (mark TEnum :: ws)).
Proof.
  intros p a q H E0 G T. unfold parse_enum in H. bnd H. set (nm := p_cur p) in *. bnd H. con M. bnd H. quiet H. bnd H. bnd H.
  assert (FR : fresh (known_of p) (ttext nm)) by (rewrite <- (known_att _ _ A); apply fresh_of; now rewrite orb_comm).
  assert (TY : good r0 /\ att r0 = att r /\ exists tw, stream r = tw ++ stream r0 /\ (tw = [] /\ v1 = 0x12 \/ exists u, In (v1, u) enum_words /\ tw = [mark TColon; ident u])).
  { destruct (is_kind TColon (p_cur r)) eqn:KC.
    - bnd M. advk M0 KC. bnd M. bnd M. con M0. destruct (enum_base (p_cur r1)) as [op|] eqn:EB; [|bnd M]. prim M. split; [auto|]. split; [congruence|].
      apply enum_base_inv in EB as (u & IU & TU). exists [mark TColon; ident u]. split; [rewrite SS0, SS1, TU; reflexivity|]. right. eauto.
    - prim M. split; [auto|]. split; [auto|]. exists []. auto. }
  clear M. destruct TY as (G1 & A1 & tw & SS1 & TY). bnd H. con M. bnd H. sub M (members_reads f [] 0%Z). bnd H. con M. unfold upd_p in H. injection H as _ <-.
  assert (AA : att r3 = att p) by congruence. split; [match goal with X : good r3 |- _ => exact X end|]. exists (add_enum {| m_name := ttext nm; m_type := v1; m_members := v3 |} (known_of p)). split.
  - pose proof (moved_same _ _ AA T) as (KN & PP & DD & TT). split; [|repeat (split; [assumption|]); exact TT].
    rewrite <- KN. unfold known_of, add_enum. cbn. rewrite map_app. reflexivity.
  - match goal with |- ate p _ ?g => change (ate p r3 g) end. chain. cbn [app]. apply (df_enum _ _ tw v1 w v3 FR TY R).
Qed.

(** ** Structures and packets *)
Lemma block_does E f : does (parse_block E f) (fun _ => block). Proof. apply all_done. Qed.
Lemma emits_inv a b p q : (when a (emit b)) p = POk tt q -> still p q.
Proof. intros M. apply when_inv in M as [(_ & M)|(_ & ->)]; [now apply emit_inv in M|apply still_refl]. Qed.
Lemma struct_defines E f : defines (parse_struct E f) (fun k ws => definition k (mark TStruct :: ws)).
Proof.
  intros p a q H E0 G T. unfold parse_struct in H. bnd H. set (nm := p_cur p) in *. bnd H. con M. bnd H. quiet H. bnd H. bnd H. unfold upd_p in M. injection M as _ M.
  assert (FR : fresh (known_of p) (ttext nm)) by (rewrite <- (known_att _ _ A); now apply fresh_of).
  pose proof (moved_same _ _ A T) as (KN & PP & DD & TT). pose proof TT as (T1 & T2 & T3). bnd H. rename r1 into r2.
  assert (ST : good r2 /\ stream r2 = stream r /\ scope_of r2 = in_struct (ttext nm) (known_of p) /\ p_fields r2 = [] /\ p_enums r2 = p_enums r /\ p_imports r2 = p_imports r /\ p_path r2 = p_path r /\
    p_depth r2 = p_depth r /\ p_packets r2 = p_packets r /\ p_unaligned r2 = false).
  { rewrite <- KN. subst r0. apply when_inv in M0 as [(UA & M0)|(UA & ->)].
    - injection M0 as _ <-. split; [exact G0|]. split; [reflexivity|]. unfold scope_of, in_struct, known_of. cbn. rewrite map_app, UA. auto 10.
    - split; [exact G0|]. split; [reflexivity|]. unfold scope_of, in_struct, known_of. cbn. rewrite map_app, UA, T2. auto 10. }
  clear M M0 EE4. destruct ST as (G2 & SS2 & SC & FS & F1 & F2 & F3 & F4 & F5 & F6). bnd H. sub2 M (block_does E f). rewrite SC, FS in R. bnd H. bnd H.
  assert (SQ : still r1 r3).
  { apply when_inv in M as [(_ & M)|(_ & ->)]; [|apply still_refl]. quiet M. now apply emit_inv in M. }
  clear M. calm_step SQ. unfold upd_p in H. injection H as _ <-.
  split; [assumption|]. exists (add_struct (ttext nm) (known_of p)). split.
  - unfold went, att, refield in WN. cbn in WN. unfold att in A0. rewrite <- KN. unfold moved, top, known_of, add_struct. cbn. rewrite map_app. cbn [map fst].
    injection WN. injection A0. intros. clear WN A0. repeat split; try congruence.
  - match goal with |- ate p _ ?g => change (ate p r3 g) end. chain. cbn [app]. rewrite app_nil_r. eapply df_struct; eauto.
Qed.
Lemma packet_defines E f p a q : parse_packet E f p = POk a q -> p_err q = false -> good p -> top p ->
  good q /\ moved p q (known_of p) /\ ate p q (fun ws => forall k, k_structs k = k_structs (known_of p) -> k_enums k = k_enums (known_of p) -> k_packets k = 0 -> definition k (mark TPacket :: ws) (add_packet k)).
Proof.
  intros H E0 G T. unfold parse_packet in H. bnd H. set (nm := p_cur p) in *. bnd H. con M. bnd H. quiet H. bnd H. bnd H. calm_step M. bnd H. bnd H.
  assert (FR : fresh (known_of p) (ttext nm)) by (rewrite <- (known_att _ _ A); now apply fresh_of).
  assert (A2 : att r0 = att p) by congruence. pose proof (moved_same _ _ A2 T) as (KN & PP & DD & TT). pose proof TT as (T1 & T2 & T3).
  assert (B2 : good r1 /\ moved r0 r1 (known_of r0) /\ ate r0 r1 (fun ws => forall k, fresh k (ttext nm) -> k_structs k = k_structs (known_of p) -> k_enums k = k_enums (known_of p) -> k_packets k = 0 ->
    definition k (mark TPacket :: name (ttext nm) :: ws) (add_packet k))).
  { destruct (is_kind TEquals (p_cur r0)) eqn:KE.
    - bnd M. advk M0 KE. bnd M. bnd M. con M0. bnd M. con M0. bnd M. destruct (find_struct (p_structs r4) (ttext (p_cur r2))) as [code|] eqn:FS; [|exfalso; eapply error_inv; eauto].
      apply emit_inv in M. calm_step M. split; [auto|]. split; [apply moved_same; [congruence|auto]|]. chain. intros k FK KS KE2 KP. cbn [app]. apply df_alias; auto. rewrite KS, <- KN.
      apply struct_found in FS. cbn. assert (X : att r4 = att r0) by congruence. unfold att in X. injection X. intros. congruence.
    - bnd M. unfold upd_p in M0. injection M0 as _ M0. bnd M.
      assert (ST : good r2 /\ stream r2 = stream r0 /\ scope_of r2 = in_packet (known_of p) /\ p_fields r2 = []).
      { subst r2. split; [assumption|]. split; [reflexivity|]. rewrite <- KN. unfold scope_of, in_packet, known_of. cbn. now rewrite T1, T2. }
      destruct ST as (G2 & SS2 & SC & FS). sub2 M1 (block_does E f). rewrite SC, FS in R. unfold upd_p in M. injection M as _ <-. split; [assumption|]. split.
      + subst r2. unfold went, att, refield in WN. cbn in WN. injection WN. intros. clear WN. unfold moved, top, known_of. cbn. repeat split; try congruence.
      + match goal with |- ate r0 _ ?g => change (ate r0 r3 g) end. chain. intros k FK KS KE2 KP. cbn [app]. rewrite app_nil_r. eapply df_packet; eauto.
        replace (in_packet k) with (in_packet (known_of p)) by (unfold in_packet; congruence). exact R. }
  clear M. destruct B2 as (G3 & MV & w & SS3 & DF). bnd H. calm_step M. apply write_inv in H. calm_step H. split; [auto|]. split.
  - eapply moved_before; [|eassumption]. eapply moved_before; [|eassumption]. eapply moved_after; [exact A2|]. rewrite <- KN. exact MV.
  - chain. intros k KS KE2 KP. cbn [app]. rewrite app_nil_r. apply DF; auto. unfold fresh in *. now rewrite KS, KE2.
Qed.

(** ** Files *)
Lemma dir_relative l : exists b, l = dir_part l ++ b /\ (dir_part l = [] \/ exists d c, dir_part l = d ++ [c] /\ slash c) /\ Forall (fun c => ~ slash c) b.
Proof.
  induction l as [|c l (b & EB & ED & FB)]; [exists []; auto|]. cbn [dir_part]. destruct (existsb (fun c => (c =? 47) || (c =? 92)) (c :: l)) eqn:X.
  - exists b. split; [cbn [app]; congruence|]. split; [|exact FB]. right. destruct ED as [ED|(d & x & ED & SX)].
    + exists [], c. rewrite ED. split; [reflexivity|]. cbn [existsb] in X. apply orb_true_iff in X as [X|X]; [unfold slash; lia|]. exfalso. rewrite ED in EB. cbn in EB. subst b.
      apply existsb_exists in X as (y & IY & Y). rewrite Forall_forall in FB. apply (FB y IY). unfold slash. lia.
    + exists (c :: d), x. rewrite ED. auto.
  - exists (c :: l). split; [reflexivity|]. split; [now left|]. apply Forall_forall. intros y IY SY. assert (existsb (fun c => (c =? 47) || (c =? 92)) (c :: l) = true); [|congruence].
    apply existsb_exists. exists y. split; [auto|]. unfold slash in SY. lia.
Qed.
Lemma resolve_relative at_ s : relative at_ s (resolve_path at_ s).
Proof. destruct (dir_relative at_) as (b & EB & ED & FB). exists (dir_part at_), b. auto. Qed.
Lemma lexed src toks : lex src = Some toks -> Exists (fun t => tk t = TEof) toks /\ word_texts (upto toks) /\ map shown toks = upto toks ++ [mark TEof].
Proof.
  intros LX. destruct (lex_ended _ _ LX) as (a & e & -> & KE & FA).
  assert (UP : forall l, Forall (fun t => tk t <> TEof) l -> upto (l ++ [e]) = map shown l).
  { induction 1 as [|t l NT F IH]; [now apply upto_eof|]. cbn [app map]. rewrite upto_more by auto. now rewrite IH. }
  rewrite UP by auto. split; [apply Exists_exists; exists e; split; [apply in_or_app; right; now left|auto]|]. split.
  - assert (T : tokens_of 0 src (a ++ [e])).
    { destruct (lex_from_spec (Datatypes.S (length src)) src 0 1 ltac:(lia)) as (ts & L & T). unfold lex in LX. rewrite L in LX. injection LX as <-. exact T. }
    intros s I. apply in_map_iff in I as (t & ET & IT). apply alnum_text, (token_names _ _ _ T). apply in_map_iff. exists t. split; [|apply in_or_app; now left].
    unfold shown in ET. unfold word_of. destruct (tk t); cbn in ET; congruence.
  - rewrite map_app. cbn. unfold shown at 2. rewrite KE. reflexivity.
Qed.

Definition brings (E : env) (path : list N) (k : known) (s : list N) (k' : known) : Prop :=
  exists f, relative path s f /\ lenN s < 256 /\
    (In (e_canon E f) (k_files k) /\ k' = k \/
     ~ In (e_canon E f) (k_files k) /\ exists fw, file_words E (e_canon E f) fw /\ file E (e_canon E f) (add_file (e_canon E f) k) fw k').
Definition filed (E : env) (f : nat) : Prop :=
  (forall p a q, top_level E f p = POk a q -> p_err q = false -> good p -> top p ->
    exists k, moved p q k /\ file E (p_path p) (known_of p) (stream p) k /\ (p_depth p = 0 -> p_packets q <> 0)) /\
  (forall p a q, top_decorators E f p = POk a q -> p_err q = false -> good p -> top p ->
    good q /\ exists k, moved p q k /\ ate p q (fun ws => settings E (p_path p) (known_of p) ws k)) /\
  (forall p a q, parse_import E f p = POk a q -> p_err q = false -> good p -> top p ->
    good q /\ exists k, moved p q k /\ ate p q (fun ws => exists s, ws = [mark TLparen; (TString, s); mark TRparen] /\ brings E (p_path p) (known_of p) s k)).
Lemma path_att p q : att q = att p -> p_path q = p_path p. Proof. unfold att. intros X. now injection X. Qed.
Lemma known_moved p q k : moved p q k -> known_of q = k. Proof. now intros (A & _). Qed.
Lemma path_moved p q k : moved p q k -> p_path q = p_path p. Proof. now intros (_ & A & _). Qed.
Lemma depth_moved p q k : moved p q k -> p_depth q = p_depth p. Proof. now intros (_ & _ & A & _). Qed.
Lemma top_moved p q k : moved p q k -> top q. Proof. now intros (_ & _ & _ & A). Qed.
Lemma import_step E f : (forall s, text (e_canon E s)) -> filed E f -> forall p a q, parse_import E (S f) p = POk a q -> p_err q = false -> good p -> top p ->
  good q /\ exists k, moved p q k /\ ate p q (fun ws => exists s, ws = [mark TLparen; (TString, s); mark TRparen] /\ brings E (p_path p) (known_of p) s k).
Proof.
  intros CT (TL & _) p a q H E0 G T. cbn [parse_import] in H. bnd H. con M. bnd H. bnd H. con M. bnd H. con M. set (s := ttext (p_cur r)) in *.
  destruct (256 <=? lenN s) eqn:LS; [exfalso; eapply error_inv; eauto|]. bnd H. assert (A2 : att r1 = att p) by congruence.
  pose proof (moved_same _ _ A2 T) as MV. pose proof MV as (KN & PP & DD & TT). cbv zeta in H. set (fl := resolve_path (p_path r1) s) in *.
  assert (RL : relative (p_path p) s fl) by (rewrite <- PP; apply resolve_relative).
  assert (IM : k_files (known_of p) = p_imports r1) by now rewrite <- KN.
  destruct (existsb (same_text (e_canon E fl)) (p_imports r1)) eqn:IN.
  - prim H. split; [auto|]. exists (known_of p). split; [auto|]. chain. exists s. split; [reflexivity|]. exists fl. split; [auto|]. split; [lia|]. left. split; [|auto].
    apply existsb_exists in IN as (x & IX & EX). apply same_text_spec in EX. rewrite IM, EX. exact IX.
  - assert (NI : ~ In (e_canon E fl) (k_files (known_of p))).
    { rewrite IM. intros I. assert (existsb (same_text (e_canon E fl)) (p_imports r1) = true) by (apply existsb_exists; eexists; split; [exact I|now apply same_text_spec]). congruence. }
    pose proof TT as (T1 & T2 & T3). rewrite (add_import _ _ T3 IN) in H. bnd H. unfold upd_p in M. injection M as _ M.
    destruct (e_read E (e_canon E fl)) as [src|] eqn:RD; [|exfalso; eapply error_inv; eauto]. destruct (lex src) as [toks|] eqn:LX; [|discriminate].
    bnd H. unfold upd_p in M0. injection M0 as _ M0. bnd H. bnd H. unfold upd_p in H. injection H as _ <-. destruct (lexed _ _ LX) as (XE & XT & XW).
    assert (TK : p_toks r3 = toks) by (subst r3; reflexivity). destruct (advance_stream _ _ _ M1 ltac:(assumption)) as (G5 & A5 & _ & S5); [now rewrite TK|now rewrite TK|]. clear M1.
    assert (K3 : known_of r3 = add_file (e_canon E fl) (known_of p) /\ p_path r3 = e_canon E fl /\ top r3).
    { subst r3 r2. rewrite <- KN. split; [reflexivity|]. split; [reflexivity|]. split; [exact T1|]. split; [exact T2|]. cbn. apply Forall_app. auto. }
    destruct K3 as (K3 & P3 & T3'). destruct (TL _ _ _ M2 ltac:(assumption) G5 (top_att _ _ A5 T3')) as (k & MK & FL & _).
    rewrite (path_att _ _ A5), P3, (known_att _ _ A5), K3, S5, TK in FL.
    split; [assumption|]. exists k. split.
    + destruct MK as (KK & _ & _ & TQ). split; [exact KK|]. split; [exact PP|]. split; [exact DD|]. exact TQ.
    + match goal with |- ate p _ ?g => change (ate p r1 g) end. chain. exists s. split; [reflexivity|]. exists fl. split; [auto|]. split; [lia|]. right. split; [auto|]. exists (upto toks).
      split; [exists src, toks; auto|exact FL].
Qed.
Lemma decs_step E f : filed E f -> forall p a q, top_decorators E (S f) p = POk a q -> p_err q = false -> good p -> top p ->
  good q /\ exists k, moved p q k /\ ate p q (fun ws => settings E (p_path p) (known_of p) ws k).
Proof.
  intros (_ & TD & TI) p a q H E0 G T. cbn [top_decorators] in H. bnd H. destruct (is_kind TAt (p_cur p)) eqn:KA; cbn [negb] in H.
  2:{ prim H. split; [auto|]. exists (known_of p). split; [now apply moved_same|]. chain. constructor. }
  bnd H. advk M KA. bnd H. set (t := p_cur r) in *. bnd H. con M. bnd H. assert (A2 : att r0 = att p) by congruence.
  assert (X : good r1 /\ exists k1, moved r0 r1 k1 /\ ate r0 r1 (fun ws => forall wr k, settings E (p_path p) k1 wr k -> settings E (p_path p) (known_of p) (mark TAt :: name (ttext t) :: ws ++ wr) k)).
  { pose proof (moved_same _ _ (eq_refl (att r0)) (top_att _ _ A2 T)) as MS. rewrite <- (known_att _ _ A2), <- (path_att _ _ A2).
    assert (TF : forall s, In s top_flags -> String.eqb s "unaligned_bytes" = false -> ttext t = chars s -> forall wr k, settings E (p_path r0) (known_of r0) wr k ->
      settings E (p_path r0) (known_of r0) (mark TAt :: name (ttext t) :: [] ++ wr) k).
    { intros s IS NU -> wr k S. apply (sn_flag E _ _ s); [auto|]. now rewrite NU. }
    destruct (match_keyword t "version") eqn:KV.
    { named. bnd M. con M0. bnd M. sub M0 u32_reads. destruct R as (n & -> & _). bnd M. calm_step M0. con M. split; [auto|]. exists (known_of r0). split; [eapply moved_before; [exact MS|congruence]|].
      chain. intros wr k S. rewrite KW. now apply (sn_version E _ _ n wr). }
    destruct (match_keyword t "import") eqn:KI.
    { named. apply TI in M; [|assumption|assumption|apply (top_att _ _ A2 T)]. destruct M as (G5 & k1 & MK & w & SS5 & s & -> & fl & RL & LS & BR). split; [auto|]. exists k1. split; [auto|]. chain.
      intros wr k S. rewrite KW. destruct BR as [(IN & ->)|(NI & fw & FW & FL)]; [eapply sn_known; eauto|eapply sn_import; eauto]. }
    destruct (match_keyword t "big_endian") eqn:KB.
    { named. apply emit_inv in M. calm_step M. split; [auto|]. exists (known_of r0). split; [eapply moved_before; [exact MS|congruence]|]. chain. apply (TF "big_endian"%string); [cbn; tauto|reflexivity|auto]. }
    destruct (match_keyword t "little_endian" || match_keyword t "le") eqn:KL.
    { apply emit_inv in M. calm_step M. split; [auto|]. exists (known_of r0). split; [eapply moved_before; [exact MS|congruence]|]. chain.
      apply orb_true_iff in KL as [KL|KL]; named; [apply (TF "little_endian"%string)|apply (TF "le"%string)]; try (cbn; tauto); auto. }
    destruct (match_keyword t "unaligned_bytes") eqn:KU.
    { named. unfold upd_p in M. injection M as _ <-. split; [assumption|]. exists (pack (known_of r0)). split.
      - destruct MS as (_ & _ & _ & T1 & T2 & T3). repeat split; assumption.
      - match goal with |- ate r0 _ ?g => change (ate r0 r0 g) end. chain. intros wr k S. rewrite KW. apply (sn_flag E _ _ "unaligned_bytes"); [cbn; tauto|]. exact S. }
    assert (NT : ~ In (ttext t) (map chars ("version" :: "import" :: top_flags)%string)).
    { assert (KI2 : is_kind TIdentifier t = true) by (apply is_kind_iff; assumption). apply orb_false_iff in KL as (KL1 & KL2). unfold match_keyword in *. rewrite KI2 in *. cbn [andb] in *. intros I. cbn [map top_flags In] in I.
      repeat (destruct I as [I|I]; [symmetry in I; apply same_text_spec in I; congruence|]). exact I. }
    bnd M. apply when_inv in M as [(KP & M)|(KP & ->)].
    - bnd M. con M0. bnd M. sub M0 (skip_reads f). con M. split; [auto|]. exists (known_of r0). split; [eapply moved_before; [exact MS|congruence]|]. chain. intros wr k S.
      apply (sn_other E _ _ (ttext t) (mark TLparen :: w ++ [mark TRparen])); [auto| |auto]. right. eauto.
    - split; [auto|]. exists (known_of r0). split; [auto|]. chain. intros wr k S. apply (sn_other E _ _ (ttext t) []); auto. }
  clear M. destruct X as (G3 & k1 & M1 & w & SS3 & X). apply TD in H; [|assumption|assumption|eapply top_moved; eauto]. destruct H as (G4 & k & M4 & w2 & SS4 & S4).
  assert (M2 : moved p r1 k1) by (eapply moved_after; eauto). split; [auto|]. exists k. split; [eapply moved_then; eauto|]. chain. rewrite app_nil_r. cbn [app]. apply X.
  rewrite (path_moved _ _ _ M2), (known_moved _ _ _ M1) in S4. exact S4.
Qed.
Lemma top_step E f : filed E f -> forall p a q, top_level E (S f) p = POk a q -> p_err q = false -> good p -> top p ->
  exists k, moved p q k /\ file E (p_path p) (known_of p) (stream p) k /\ (p_depth p = 0 -> p_packets q <> 0).
Proof.
  intros (TL & TD & _) p a q H E0 G T. cbn [top_level] in H. bnd H. bnd H. rewrite EE in H. rewrite orb_false_r in H.
  assert (EN : forall p a q, (let% none := get (fun p => (p_packets p =? 0) && (p_depth p =? 0)) in when none error) p = POk a q -> p_err q = false -> tk (p_cur p) = TEof ->
    q = p /\ stream p = [] /\ (p_depth p = 0 -> p_packets q <> 0)).
  { clear. intros p a q H E0 K. bnd H. apply when_inv in H as [(_ & H)|(B & ->)]; [exfalso; eapply error_inv; eauto|]. split; [auto|]. split; [now apply upto_eof|lia]. }
  destruct (is_kind TEof (p_cur p)) eqn:KE.
  { apply EN in H; [|assumption|now apply is_kind_iff]. destruct H as (-> & S0 & PK). exists (known_of p). split; [now apply moved_same|]. split; [|auto]. rewrite S0. apply fl_end. constructor. }
  destruct (is_kind TDoc (p_cur p)) eqn:KD.
  { bnd H. advk M KD. apply TL in H; [|assumption|assumption|eapply top_att; eauto]. destruct H as (k & MK & FL & PK). exists k. split; [eapply moved_after; eauto|].
    rewrite (path_att _ _ A), (known_att _ _ A) in FL. split; [rewrite SS; now apply fl_doc|]. intros D0. apply PK. unfold att in A. injection A. congruence. }
  bnd H. apply TD in M; [|assumption|assumption|assumption]. destruct M as (G1 & k1 & M1 & dw & S1 & ST). pose proof (top_moved _ _ _ M1) as T1. bnd H. bnd H.
  destruct (kind_eq_dec (tk (p_cur r)) TEof) as [KR|KR].
  { rewrite KR in M. prim M. destruct f as [|f]; [discriminate|]. cbn [top_level] in H. bnd H. bnd H. rewrite (proj2 (is_kind_iff _ _) KR) in H. cbn [orb] in H.
    apply EN in H; [|assumption|assumption]. destruct H as (-> & S0 & PK). exists k1. split; [auto|]. rewrite S0, app_nil_r in S1. split; [rewrite S1; now apply fl_end|].
    intros D0. apply PK. rewrite <- D0. eapply depth_moved; eauto. }
  assert (D : good r0 /\ exists k2, moved r r0 k2 /\ ate r r0 (fun ws => definition k1 ws k2)).
  { destruct (kind_eq_dec (tk (p_cur r)) TStruct) as [K|N1]; [|destruct (kind_eq_dec (tk (p_cur r)) TEnum) as [K|N2]; [|destruct (kind_eq_dec (tk (p_cur r)) TPacket) as [K|N3];
      [|destruct (kind_eq_dec (tk (p_cur r)) TSemicolon) as [K|N4]]]]; try rewrite K in M.
    - bnd M. advk M0 K. apply (struct_defines E f _ _ _) in M; [|assumption|assumption|eapply top_att; eauto]. destruct M as (G3 & k2 & M3 & w & S3 & D). split; [auto|]. exists k2. split; [eapply moved_after; eauto|].
      chain. rewrite (known_att _ _ A), (known_moved _ _ _ M1) in D. rewrite app_nil_r. exact D.
    - bnd M. advk M0 K. apply (enum_defines f _ _ _) in M; [|assumption|assumption|eapply top_att; eauto]. destruct M as (G3 & k2 & M3 & w & S3 & D). split; [auto|]. exists k2. split; [eapply moved_after; eauto|].
      chain. rewrite (known_att _ _ A), (known_moved _ _ _ M1) in D. rewrite app_nil_r. exact D.
    - bnd M. quiet M. bnd M. unfold upd_p in M0. injection M0 as _ M0. bnd M.
      assert (R1 : good r1 /\ stream r1 = stream r /\ p_cur r1 = p_cur r /\ moved r r1 (add_packet k1)).
      { rewrite <- (known_moved _ _ _ M1). subst r1. split; [assumption|]. split; [reflexivity|]. split; [reflexivity|]. destruct T1 as (Y1 & Y2 & Y3). repeat split; try assumption.
        unfold known_of, add_packet. cbn. assert (p_packets r = 0) as -> by lia. reflexivity. }
      assert (PZ : k_packets k1 = 0) by (rewrite <- (known_moved _ _ _ M1); cbn; lia).
      clear M0. destruct R1 as (G2 & S2 & C2 & M5). rewrite <- C2 in K. advk M2 K. apply packet_defines in M; [|assumption|assumption|eapply top_att; [eassumption|]; eapply top_moved; eauto].
      destruct M as (G7 & M7 & w & S7 & D). split; [auto|]. exists (add_packet k1). rewrite (known_att _ _ A), (known_moved _ _ _ M5) in *. split; [eapply moved_then; [exact M5|]; eapply moved_after; eauto|].
      chain. rewrite app_nil_r. now apply D.
    - advk M K. split; [auto|]. exists k1. split; [eapply moved_before; [|eassumption]|]. { rewrite <- (known_moved _ _ _ M1). now apply moved_same. } chain. constructor.
    - exfalso. assert (M' : error r = POk v0 r0) by (destruct (tk (p_cur r)); congruence || exact M). eapply error_inv; eauto. }
  clear M. destruct D as (G2 & k2 & M2 & w & S2 & D). apply TL in H; [|assumption|assumption|eapply top_moved; eauto]. destruct H as (k & M3 & FL & PK). exists k.
  assert (MP : moved p r0 k2) by (eapply moved_then; eauto). split; [eapply moved_then; eauto|]. rewrite (path_moved _ _ _ MP), (known_moved _ _ _ M2) in FL. split.
  - rewrite S1, S2. eapply fl_more; eauto.
  - intros D0. apply PK. rewrite <- D0. eapply depth_moved; eauto.
Qed.
Lemma all_filed E f : (forall s, text (e_canon E s)) -> filed E f.
Proof.
  intros CT. induction f as [|f IH]; [unfold filed; repeat split; intros; discriminate|]. split; [now apply top_step|]. split; [now apply decs_step|]. now apply import_step.
Qed.
Scheme file_ind2 := Induction for file Sort Prop with settings_ind2 := Induction for settings Sort Prop.
Lemma at_most_one E path k ws k' : file E path k ws k' -> k_packets k <= 1 -> k_packets k' <= 1.
Proof.
  intros H. refine (file_ind2 E (fun path k ws k' _ => k_packets k <= 1 -> k_packets k' <= 1) (fun path k ws k' _ => k_packets k <= 1 -> k_packets k' <= 1) _ _ _ _ _ _ _ _ _ path k ws k' H); auto; clear.
  - intros path k dw k1 w k2 ws k' _ I1 D _ I2 L. apply I2. specialize (I1 L). destruct D; cbn; lia || auto.
  - intros path k s ws k' _ _ I L. apply I. destruct (String.eqb s "unaligned_bytes"); auto.
Qed.
Lemma accepted E path fuel im : (forall s, text (e_canon E s)) -> compile_file E fuel path = CImage im -> schema E (e_canon E path).
Proof.
  intros CT H. unfold compile_file in H. destruct (e_read E (e_canon E path)) as [src|] eqn:RD; [|discriminate]. unfold parse_file in H. destruct (lex src) as [toks|] eqn:LX; [|discriminate].
  destruct ((advance ;; top_level E fuel) (parser0 (e_canon E path) toks)) as [u q| |] eqn:PF; try discriminate. destruct (p_err q) eqn:E0; [discriminate|]. clear H.
  destruct (lexed _ _ LX) as (XE & XT & XW). bnd PF. destruct (advance_stream _ _ _ M ltac:(assumption) XE XT) as (G & A & _ & S). cbn [parser0 p_toks] in S.
  assert (T : top r). { eapply top_att; [exact A|]. repeat split; cbn; auto. }
  destruct (proj1 (all_filed E fuel CT) _ _ _ PF E0 G T) as (k & MV & FL & PK). rewrite S, (path_att _ _ A), (known_att _ _ A) in FL. cbn in FL.
  exists (upto toks), k. split; [exists src, toks; auto|]. split; [exact FL|]. assert (D0 : p_depth r = 0) by (unfold att in A; now injection A).
  specialize (PK D0). pose proof (at_most_one E _ _ _ _ FL ltac:(cbn; lia)) as AO. rewrite <- (known_moved _ _ _ MV) in AO |- *. cbn in *. lia.
Qed.

(** ** What the grammar says of names *)
Scheme stmt_ind2 := Induction for stmt Sort Prop with choice_ind2 := Induction for choice Sort Prop with block_ind2 := Induction for block Sort Prop
  with stmts_ind2 := Induction for stmts Sort Prop with cases_ind2 := Induction for cases Sort Prop with body_ind2 := Induction for body Sort Prop.
Lemma nodup_snoc {A} (l : list A) x : NoDup l -> ~ In x l -> NoDup (l ++ [x]).
Proof.
  intros N I. induction N as [|y l NI N IH]; [repeat constructor; auto|]. cbn. constructor.
  - rewrite in_app_iff. cbn. intros [X|[X|[]]]; [auto|subst; apply I; now left].
  - apply IH. intros X. apply I. now right.
Qed.
Lemma fields_distinct c fs ws gs : block c fs ws gs -> NoDup fs -> NoDup gs.
Proof.
  intros H. refine (block_ind2 c (fun fs ws gs _ => NoDup fs -> NoDup gs) (fun fs ws gs _ => NoDup fs -> NoDup gs) (fun fs ws gs _ => NoDup fs -> NoDup gs) (fun fs ws gs _ => NoDup fs -> NoDup gs)
    (fun seen fs ws gs _ => NoDup fs -> NoDup gs) (fun fs ws gs _ => NoDup fs -> NoDup gs) _ _ _ _ _ _ _ _ _ _ _ _ _ _ _ _ _ _ _ fs ws gs H); auto using nodup_snoc.
Qed.
Lemma members_distinct seen next ws l : members seen next ws l -> NoDup (map fst seen) -> NoDup (map snd seen) -> NoDup (map fst l) /\ NoDup (map snd l).
Proof.
  induction 1; intros A B; auto; apply IHmembers; rewrite map_app; cbn; auto using nodup_snoc.
Qed.
Definition distinct (k : known) : Prop := NoDup (k_structs k) /\ NoDup (map m_name (k_enums k)) /\ (forall n, In n (k_structs k) -> ~ In n (map m_name (k_enums k))) /\ NoDup (k_files k).
Lemma names_distinct E path k ws k' : file E path k ws k' -> distinct k -> distinct k'.
Proof.
  intros H. refine (file_ind2 E (fun path k ws k' _ => distinct k -> distinct k') (fun path k ws k' _ => distinct k -> distinct k') _ _ _ _ _ _ _ _ _ path k ws k' H); auto; clear.
  - intros path k dw k1 w k2 ws k' _ I1 D _ I2 L. apply I2. specialize (I1 L). clear - I1 D. destruct I1 as (A & B & C & F). destruct D as [|n tw ty ws l (F1 & F2) T M|n bw fs (F1 & F2) BL|n bw fs F0 P BL|n s F0 P IS]; unfold distinct; cbn.
    + auto.
    + rewrite map_app. cbn. split; [auto|]. split; [now apply nodup_snoc|]. split; [|auto]. intros m IM. rewrite in_app_iff. cbn. intros [X|[X|[]]]; [now apply (C m)|congruence].
    + split; [now apply nodup_snoc|]. split; [auto|]. split; [|auto]. intros m IM. apply in_app_iff in IM as [IM|[<-|[]]]; auto.
    + auto.
    + auto.
  - intros path k s ws k' _ _ I L. apply I. destruct (String.eqb s "unaligned_bytes"); auto.
  - intros path k s f fw k1 ws k' _ _ NI _ _ I1 _ I2 (A & B & C & F). apply I2, I1. unfold distinct. cbn. auto using nodup_snoc.
Qed.
