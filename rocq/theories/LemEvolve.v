(** Growing packets and converted numbers. *)
From Coq Require Import ZifyBool ZifyNat ZifyN.
From Verif Require Import Base SpecBytes LemBase ModelWord ModelFloat ModelTrans ModelVM SpecVM LemTrans LemJnum ModelText SpecText ModelParse ModelSchema
  ModelImage SpecImage LemImage SpecParse SpecNames SpecPacket SpecMessage LemFlow LemSend LemMessage SpecNest LemNest LemNestRun
  SpecParts LemPartsWire LemPartsBits LemPartsNum LemPartsRun SpecEvolve.
Ltac Zify.zify_post_hook ::= Z.div_mod_to_equations.

(** ** Parts one after another *)
Lemma parts_bytes_app ps : forall gs qs hs p o, length ps = length gs ->
  parts_bytes p (ps ++ qs) (gs ++ hs) o = let (x, o1) := parts_bytes p ps gs o in let (y, o2) := parts_bytes (p ++ x) qs hs o1 in (x ++ y, o2).
Proof.
  induction ps as [|a ps IH]; intros [|g gs] qs hs p o L; try discriminate; cbn [app parts_bytes].
  - rewrite app_nil_r. destruct (parts_bytes p qs hs o). reflexivity.
  - destruct (part_bytes p a g o) as [x o1]. rewrite IH by (cbn in L; lia). destruct (parts_bytes (p ++ x) ps gs o1) as [y o2].
    rewrite <- app_assoc. destruct (parts_bytes (p ++ x ++ y) qs hs o2) as [w o3]. now rewrite app_assoc.
Qed.
Lemma said_lengths m id pos old ps gs t : parts_said m id pos old ps gs t -> length ps = length gs.
Proof. induction 1; cbn; auto. Qed.
Lemma skipn_more {A} (a b : N) (l : list A) : skipn (N.to_nat b) (skipn (N.to_nat a) l) = skipn (N.to_nat (a + b)) l.
Proof. rewrite N2Nat.inj_add. generalize (N.to_nat a), (N.to_nat b). clear. intros n k. revert l. induction n as [|n IH]; intros l; [reflexivity|]. destruct l; [now rewrite !skipn_nil|]. apply IH. Qed.
Lemma said_size m id pos old ps gs t : parts_said m id pos old ps gs t -> exists z, (forall p o, lenN (fst (parts_bytes p ps gs o)) = z) /\
  forall qs hs u, parts_said m id (pos + z) (skipn (N.to_nat z) old) qs hs u -> parts_said m id pos old (ps ++ qs) (gs ++ hs) (t ++ u).
Proof.
  assert (MIX : forall a g ps gs z w, (forall p o, lenN (fst (part_bytes p a g o)) = z) -> (forall p o, lenN (fst (parts_bytes p ps gs o)) = w) ->
    forall p o, lenN (fst (parts_bytes p (a :: ps) (g :: gs) o)) = z + w).
  { intros a g ps0 gs0 z w A B p o. cbn [parts_bytes]. specialize (A p o). destruct (part_bytes p a g o) as [x o1]. specialize (B (p ++ x) o1).
    destruct (parts_bytes (p ++ x) ps0 gs0 o1) as [y o2]. cbn [fst] in *. rewrite lenN_app. lia. }
  induction 1 as [pos old|pos old a d z t ps gs u SD R IH|pos old l vs z t ps gs u SD Z R IH|pos old ds n ps gs u z R IH|pos old ds ty n raw v r ps gs u c z HR HV R IH|pos old ds ty n r ps gs u HR HL R IH].
  - exists 0. split; [reflexivity|]. intros qs hs u. now rewrite N.add_0_r.
  - destruct IH as (w & LW & K). exists (z + w). split; [apply MIX; [|exact LW]; intros p o; cbn [part_bytes]; eapply (proj1 (said_sizes m id)); eauto|].
    intros qs hs v X. cbn [app]. rewrite <- app_assoc. eapply parts_said_member; [exact SD|]. apply K. now rewrite skipn_more, <- N.add_assoc.
  - destruct IH as (w & LW & K). exists (z + w). split; [apply MIX; [|exact LW]; intros p o; cbn [part_bytes fst]; pose proof (stream_bytes o l vs ltac:(lia)); lia|].
    intros qs hs v X. cbn [app]. rewrite <- app_assoc. eapply parts_said_bits; [exact SD|exact Z|]. apply K. now rewrite skipn_more, <- N.add_assoc.
  - destruct IH as (w & LW & K). exists (z + w). split; [apply MIX; [|exact LW]; intros p o; cbn [part_bytes fst]; rewrite lenN_bytes_of; unfold z; lia|].
    intros qs hs v X. cbn [app]. eapply parts_said_check. apply K. fold z. now rewrite skipn_more, <- N.add_assoc.
  - destruct IH as (w & LW & K). exists (z + w). split; [apply MIX; [|exact LW]; intros p o; cbn [part_bytes fst]; rewrite lenN_bytes_of; unfold z; lia|].
    intros qs hs u' X. cbn [app]. eapply parts_said_number; [exact HR|exact HV|]. apply K. fold z. now rewrite skipn_more, <- N.add_assoc.
  - destruct IH as (w & LW & K). exists w. split; [|].
    + replace w with (0 + w) by lia. apply MIX; [|exact LW]. intros p o. reflexivity.
    + intros qs hs u' X. cbn [app]. eapply parts_said_missing; auto.
Qed.

(** ** Packets that grow *)
Lemma missing_said m id fs : forall rs pos, Forall (fun f => 0x10 <= nf_type f <= 0x1A) fs -> length rs = length fs -> Forall (fun r => r_ok r = true) rs ->
  parts_said m id pos [] (map number_part fs) (repeat Missing (length fs)) (told_missing id fs rs).
Proof.
  induction fs as [|f fs IH]; intros [|r rs] pos T L K; try discriminate; cbn [map repeat length told_missing]; [constructor|].
  inversion T; subst. inversion K; subst. apply parts_said_missing; auto. change (lenN []) with 0.
  assert (X : nf_type f = 16 \/ nf_type f = 17 \/ nf_type f = 18 \/ nf_type f = 19 \/ nf_type f = 20 \/ nf_type f = 21 \/ nf_type f = 22 \/ nf_type f = 23 \/ nf_type f = 24 \/ nf_type f = 25 \/ nf_type f = 26) by lia.
  decompose [or] X; match goal with E : nf_type f = _ |- _ => rewrite E; reflexivity end.
Qed.
Lemma missing_bytes fs : forall p o, fst (parts_bytes p (map number_part fs) (repeat Missing (length fs)) o) = [].
Proof.
  induction fs as [|f fs IH]; intros p o; [reflexivity|]. cbn [map repeat length parts_bytes number_part part_bytes]. rewrite app_nil_r.
  specialize (IH p (if u_big (num_of (nf_decs f)) then LE else o)). destruct (parts_bytes p (map number_part fs) _ _). exact IH.
Qed.
Lemma missing_ok fs : Forall addition fs -> Forall2 part_ok (map number_part fs) (repeat Missing (length fs)).
Proof. induction 1 as [|f fs (A & B) F IH]; cbn [map repeat length]; constructor; auto. cbn [number_part part_ok]. split; [exact A|exact B]. Qed.
Lemma missing_skips names fs : Forall2 (part_skips names) (map number_part fs) (repeat Missing (length fs)).
Proof. induction fs; cbn [map repeat length]; constructor; auto. exact Logic.I. Qed.
Lemma numbers_depth fs : Forall (fun p => part_depth p <= 8) (map number_part fs).
Proof. induction fs; constructor; auto. discriminate. Qed.

Section Grow.
  Context {H : Type} (host : H -> request -> H * reply) (lm : libm) (id : list N -> N) (names : N).
  (** The old message, read by the new program *)
  Lemma grown_reads_old old new fs gs rs t h h' : extends old new fs -> Forall (part_plain id) (fr_parts new) -> small id names (frame_names new) -> names <= 65536 ->
    Forall (fun p => part_depth p <= 8) (fr_parts old) -> Forall2 part_ok (fr_parts old) gs -> Forall2 (part_skips names) (fr_parts old) gs ->
    length rs = length fs -> Forall (fun r => r_ok r = true) rs -> let msg := frame_bytes old gs in
    parts_said Dec id 0 msg (fr_parts old) gs t -> plays host h (t ++ told_missing id fs rs) h' ->
    exists s' n, (forall fuel, (n <= fuel)%nat -> run host lm (SpecNames.code (frame_instrs id new)) fuel (init Dec msg) h = (Done EOk s', h', t ++ told_missing id fs rs)) /\
      buf s' = msg /\ position s' = 8 * lenN msg.
  Proof.
    intros (ES & EO & EP & AD) PP SM NM DP OK SK LR RO msg SD PL. pose proof PP as PP'. rewrite EP in PP'. apply Forall_app in PP' as (_ & PF).
    assert (T : Forall (fun f => 0x10 <= nf_type f <= 0x1A) fs).
    { clear - PF. induction fs as [|f fs IH]; constructor; inversion PF; subst; auto. destruct H1 as (X & _). exact X. }
    destruct (said_size _ _ _ _ _ _ _ SD) as (z & LZ & K). pose proof (said_lengths _ _ _ _ _ _ _ SD) as LL.
    assert (EB : frame_bytes new (gs ++ repeat Missing (length fs)) = msg).
    { unfold frame_bytes, frame_order. rewrite EP, EO, parts_bytes_app by exact LL. unfold msg, frame_bytes, frame_order. destruct (parts_bytes [] (fr_parts old) gs _) as [x o1].
      pose proof (missing_bytes fs ([] ++ x) o1) as M. destruct (parts_bytes ([] ++ x) _ _ o1) as [y o2]. cbn [fst] in *. now rewrite M, app_nil_r. }
    assert (WM : wf_bytes msg) by (apply parts_wf, parts_ok_all, OK).
    destruct (frame_run_whole host lm id new names PP SM NM) with (m := Dec) (old := msg) (gs := gs ++ repeat Missing (length fs)) (t := t ++ told_missing id fs rs) (h := h) (h' := h') as (s' & n & R & B & P); auto.
    - rewrite EP. apply Forall_app. split; [exact DP|apply numbers_depth].
    - rewrite EP. apply K. specialize (LZ [] (frame_order old)). change (fst (parts_bytes [] (fr_parts old) gs (frame_order old))) with msg in LZ.
      replace (skipn (N.to_nat z) msg) with (@nil N); [now apply missing_said|]. symmetry. apply skipn_all2. unfold lenN in LZ. lia.
    - rewrite EP. apply Forall2_app; [exact OK|now apply missing_ok].
    - rewrite EP. apply Forall2_app; [exact SK|apply missing_skips].
    - rewrite EB. split; [lia|]. intros _. unfold after. rewrite skipn_all2 by (unfold lenN; lia). apply app_nil_r.
    - exists s', n. split; [exact R|]. rewrite EB in B, P. split; [|exact P]. rewrite B. unfold after. rewrite skipn_all2 by (unfold lenN; lia). apply app_nil_r.
  Qed.
  (** The new message begins with the old one *)
  Lemma grown_message old new fs gs hs : extends old new fs -> Forall2 part_ok (fr_parts old) gs -> Forall2 part_ok (map number_part fs) hs ->
    exists more, frame_bytes new (gs ++ hs) = frame_bytes old gs ++ more /\ wf_bytes more.
  Proof.
    intros (ES & EO & EP & AD) OK OK'. unfold frame_bytes, frame_order. rewrite EP, EO, parts_bytes_app.
    - destruct (parts_bytes [] (fr_parts old) gs _) as [x o1]. pose proof (parts_wf (map number_part fs) hs ([] ++ x) o1 (parts_ok_all _ _ OK')) as W.
      destruct (parts_bytes ([] ++ x) _ _ o1) as [y o2]. exists y. split; [reflexivity|exact W].
    - clear - OK. induction OK; cbn; auto.
  Qed.
  Lemma old_reads old gs more t h h' : Forall (part_plain id) (fr_parts old) -> small id names (frame_names old) -> names <= 65536 ->
    Forall (fun p => part_depth p <= 8) (fr_parts old) -> Forall2 part_ok (fr_parts old) gs -> Forall2 (part_skips names) (fr_parts old) gs -> wf_bytes more ->
    let msg := frame_bytes old gs ++ more in parts_said Dec id 0 msg (fr_parts old) gs t -> plays host h t h' ->
    exists s' n, (forall fuel, (n <= fuel)%nat -> run host lm (SpecNames.code (frame_instrs id old)) fuel (init Dec msg) h = (Done EOk s', h', t)) /\
      buf s' = msg /\ position s' = 8 * lenN (frame_bytes old gs).
  Proof.
    intros PP SM NM DP OK SK WM msg SD PL.
    destruct (frame_run_whole host lm id old names PP SM NM DP Dec msg gs t h h') as (s' & n & R & B & P); auto.
    - apply wf_app; [now apply parts_wf, parts_ok_all|exact WM].
    - unfold msg. split; [rewrite lenN_app; lia|]. intros _. unfold after. now rewrite skipn_front.
    - exists s', n. split; [exact R|]. split; [|exact P]. rewrite B. unfold after, msg. now rewrite skipn_front.
  Qed.
End Grow.

(** ** Converted numbers *)
Lemma int_conv_store ty x : 0x10 <= ty <= 0x17 -> (least ty <= x <= greatest ty)%Z -> small64 x ->
  let raw := ofZ (width ty) x in number_ok ty raw /\ meant ty raw = x.
Proof.
  intros TY IN SM raw. destruct (int_width ty TY) as (_ & W). split.
  - split; [apply LemWire.ofZ_bound|lia].
  - unfold meant. apply number_ofZ; [lia|]. unfold SpecVM.fits. unfold least, greatest in IN. destruct (type_signed ty); lia.
Qed.
Lemma storable_both f v : 0x10 <= nf_type f <= 0x1A -> (conv_of f <> CSame -> nf_type f <= 0x17) -> storable f v ->
  exists raw, number_ok (nf_type f) raw /\ stores (conv_of f) (nf_type f) v raw /\ reports (conv_of f) (nf_type f) raw v.
Proof.
  intros TY CT ST. unfold storable in ST. destruct (conv_of f) as [|z|z|z|z|a b]; [|..|contradiction].
  1:{ exists v. split; [exact ST|]. cbn [stores reports]. auto. }
  all: destruct ST as (VL & IN & SM & EX); cbn [wire_number] in *; specialize (CT ltac:(discriminate));
    destruct (int_conv_store (nf_type f) _ ltac:(lia) IN SM) as (NO & ME);
    eexists; (split; [exact NO|]); cbn [stores reports]; rewrite ME.
  - repeat split; auto; try apply SM; try lia.
  - repeat split; auto; try apply SM; try lia.
  - destruct EX as (Z0 & (q & Q)). rewrite Q in *. rewrite Z.div_mul in * by exact Z0. rewrite Z.quot_mul by exact Z0. repeat split; auto; apply SM.
  - repeat split; auto; try apply SM. rewrite Z.quot_mul by exact EX. reflexivity.
Qed.
Lemma numbers_both fs : forall vs, Forall (fun f => 0x10 <= nf_type f <= 0x1A /\ (conv_of f <> CSame -> nf_type f <= 0x17)) fs -> Forall2 storable fs vs ->
  exists gs, Forall2 part_ok (map number_part fs) gs /\ (forall names, Forall2 (part_skips names) (map number_part fs) gs) /\
    (forall p o, lenN (fst (parts_bytes p (map number_part fs) gs o)) = total fs) /\
    forall m id t, numbers_said m id fs vs t -> forall pos old, parts_said m id pos old (map number_part fs) gs t.
Proof.
  induction fs as [|f fs IH]; intros vs T ST; inversion ST as [|? v ? vs' SF SV]; subst.
  - exists []. split; [constructor|]. split; [constructor|]. split; [reflexivity|]. intros m id t X pos old. inversion X; subst. constructor.
  - inversion T as [|? ? (T1 & T2) TF]; subst. destruct (IH _ TF SV) as (gs & A & B & C & D). destruct (storable_both f v T1 T2 SF) as (raw & NO & S1 & S2).
    exists (Stored raw :: gs). split; [constructor; [exact NO|exact A]|]. split; [intros names; constructor; [exact Logic.I|apply B]|]. split.
    + intros p o. cbn [map parts_bytes number_part part_bytes]. specialize (C (p ++ bytes_of (if u_big (num_of (nf_decs f)) then BE else o) (N.to_nat (width (nf_type f))) raw) (if u_big (num_of (nf_decs f)) then LE else o)).
      destruct (parts_bytes _ (map number_part fs) gs _) as [y o2]. cbn [fst] in *. rewrite lenN_app, lenN_bytes_of, C. unfold total. cbn [map fold_right]. lia.
    + intros m id t X pos old. inversion X as [|? ? r ? ? u HR HA Y]; subst. cbn [map]. unfold number_part at 1. unfold number_call. apply parts_said_number; [exact HR| |now apply D].
      destruct m; [split; [now apply HA|exact S1]|exact S2].
Qed.
Section Numbers.
  Context {H : Type} (host : H -> request -> H * reply) (lm : libm) (id : list N -> N) (names : N).
  Lemma numbers_depth_of k fs : fr_parts k = map number_part fs -> Forall (fun p => part_depth p <= 8) (fr_parts k).
  Proof. intros ->. apply numbers_depth. Qed.
  Lemma numbers_run k fs gs m old t h h' : fr_parts k = map number_part fs -> Forall (part_plain id) (fr_parts k) -> small id names (frame_names k) -> names <= 65536 ->
    Forall2 part_ok (fr_parts k) gs -> Forall2 (part_skips names) (fr_parts k) gs -> parts_said m id 0 old (fr_parts k) gs t -> wf_bytes old ->
    fits m (frame_bytes k gs) old -> plays host h t h' ->
    exists s' n, (forall fuel, (n <= fuel)%nat -> run host lm (SpecNames.code (frame_instrs id k)) fuel (init m old) h = (Done EOk s', h', t)) /\
      buf s' = after (frame_bytes k gs) old /\ position s' = 8 * lenN (frame_bytes k gs).
  Proof. intros EP PP SM NM OK SK SD WF F PL. eapply (frame_run_whole host lm id k names PP SM NM (numbers_depth_of k fs EP)); eauto. Qed.
End Numbers.
