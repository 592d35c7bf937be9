(** What one instruction can do to the state, for every instruction and every reply. *)
From Verif Require Import Base SpecBytes LemBase ModelWord LemWord ModelBits LemBits ModelFloat ModelTrans
  ModelCrc ModelVM LemAct.
Ltac Zify.zify_post_hook ::= Z.div_mod_to_equations.

(** Position in the packet, in bits *)
Definition pos (s : st) : N := 8 * cur s + boff s.

(** [Gs]: also claim that the position is inside the packet *)
Record Inv (Gs : Prop) (s : st) : Prop := {
  i_wf : wf_bytes (buf s);
  i_boff : boff s < 8;
  i_pos : Gs -> pos s <= 8 * dlen s;
  i_stk : lenN (stk s) <= 8;
  i_loops : lenN (loops s) <= 8 }.

(** Instructions that break the invariant.  [op] is the opcode, [s] the state after the opcode
    byte was fetched and alignment was done. *)

(** decode-side padding past the end of the packet *)
Definition haz_pad (bc : list N) (op : N) (s : st) : Prop :=
  op = 0x23 /\ md s = Dec /\ 8 * dlen s < pos s + fst (fetchv W1 bc (ip s)).
(** enum check with fewer bytes before the cursor than the type has *)
Definition haz_enum (bc : list N) (op : N) (s : st) : Prop :=
  op = 0x4B /\ exists t, int_type (fst (fetchv W1 bc (ip s))) = Some t /\ cur s < wbytes (i_w t).
(** computed field in the middle of a byte *)
Definition haz_emit (op : N) (s : st) : Prop := op = 0x65 /\ boff s <> 0.
(** dense switch over 2^61 values or more *)
Definition haz_table (bc : list N) (op : N) (s : st) : Prop :=
  op = 0x53 /\
  let p := snd (fetchv W2 bc (ip s)) in
  let (rel, p) := fetchv W4 bc p in
  let (mn, t) := fetchv W8 bc (p + rel) in
  let (mx, _) := fetchv W8 bc t in p + rel + 20 <= lenN bc /\ 2 ^ 61 <= mx - mn.

Definition hazard (bc : list N) (op : N) (s : st) : Prop :=
  haz_pad bc op s \/ haz_enum bc op s \/ haz_emit op s.

(** Not memory-related undefined behaviour *)
Definition not_mem (u : ubk) : Prop := u <> UData /\ u <> UIl /\ u <> UStack.

Section Rel.
  (** [Gq]: a refusing host has not written through the pointer it was lent.
      [Gw]: the host never writes through a pointer into the packet. *)
  Variables Gs Gq Gw : Prop.
  Notation Inv := (Inv Gs).

  Definition RP (rq : request) (r : reply) : Prop :=
    (Gq -> r_ok r = false -> r_bytes r = []) /\ (Gw -> r_bytes r = []).

  Record rel (op : N) (s s' : st) : Prop := {
    e_md : md s' = md s;
    e_len : dlen s' = dlen s;
    e_inv : Inv s';
    e_pos : pos s <= pos s';
    e_frame : Gq -> forall j, (haz_emit op s -> j < 8 * cur s \/ pos s' <= j) -> ~ (pos s <= j < pos s') -> sbit (en s) (buf s') j = sbit (en s) (buf s) j;
    e_dec : Gw -> md s = Dec -> op <> 0x41 -> buf s' = buf s;
    e_en : op <> 0x01 -> op <> 0x02 -> en s' = en s }.

  (** A pointer lent to the host covers only bytes of the packet buffer *)
  Definition lent (s : st) (rq : request) : Prop :=
    match rq_pl rq with
    | PBuf p l => p + lenN l <= dlen s /\ wf_bytes l
    | _ => True
    end.

  Variables (lm : libm) (bc : list N).

  (** Undefined behaviour an instruction may show *)
  Definition may (op : N) (s : st) (u : ubk) : Prop :=
    u <> UStack /\ (Gs -> u <> UData) /\ (u = UIl -> haz_table bc op s).
  Lemma not_mem_may op s u : not_mem u -> may op s u.
  Proof. intros (A & B & C). split; [auto|]. split; [auto|]. congruence. Qed.

  Notation good op s := (all_act RP (rel op s) (fun _ => rel op s) (may op s) (lent s)).

  Lemma rel_intro op s s' : Inv s -> md s' = md s -> en s' = en s \/ op = 0x01 \/ op = 0x02 ->
    wf_bytes (buf s') -> lenN (buf s') = lenN (buf s) ->
    boff s' < 8 -> pos s <= pos s' -> (Gs -> pos s' <= 8 * lenN (buf s)) ->
    lenN (stk s') <= 8 -> lenN (loops s') <= 8 ->
    (Gq -> forall j, (haz_emit op s -> j < 8 * cur s \/ pos s' <= j) -> ~ (pos s <= j < pos s') -> sbit (en s) (buf s') j = sbit (en s) (buf s) j) ->
    (Gw -> md s = Dec -> op <> 0x41 -> buf s' = buf s) ->
    rel op s s'.
  Proof.
    intros. constructor; auto.
    - constructor; auto. unfold dlen. rewrite H3. auto.
    - destruct H1 as [?|[?|?]]; auto; congruence.
  Qed.
  (** buffer unchanged *)
  Lemma rel_same op s s' : Inv s -> buf s' = buf s -> md s' = md s ->
    en s' = en s \/ op = 0x01 \/ op = 0x02 ->
    boff s' < 8 -> pos s <= pos s' -> (Gs -> pos s' <= 8 * lenN (buf s)) ->
    lenN (stk s') <= 8 -> lenN (loops s') <= 8 -> rel op s s'.
  Proof.
    intros I B. intros. apply rel_intro; auto; rewrite ?B; auto. apply (i_wf _ s I).
  Qed.

  Lemma put_frame e b c d p p' : c + lenN d <= lenN b -> p <= 8 * c -> 8 * (c + lenN d) <= p' ->
    forall j, ~ (p <= j < p') -> sbit e (put b c d) j = sbit e b j.
  Proof.
    intros H H1 H2 j J. apply sbit_bytes. rewrite nthN_put by auto.
    destruct (N.leb_spec c (j / 8)), (N.ltb_spec (j / 8) (c + lenN d)); cbn; auto. lia.
  Qed.

  (** bytes [d] put at the byte-aligned cursor, cursor moved past them *)
  Lemma rel_put op s s' c d : buf s' = put (buf s) c d -> Inv s -> boff s = 0 -> cur s <= c ->
    c + lenN d <= lenN (buf s) -> wf_bytes d ->
    (md s = Enc \/ op = 0x41 \/ (Gw -> d = [])) ->
    md s' = md s -> en s' = en s -> boff s' = 0 -> (c + lenN d <= cur s' \/ (Gq -> d = [])) ->
    cur s <= cur s' -> (Gs -> cur s' <= lenN (buf s)) ->
    stk s' = stk s -> lenN (loops s') <= 8 -> rel op s s'.
  Proof.
    intros B I B0 HC HL WD HD HM HE B1 C1 C1' C2 HS HLo.
    apply rel_intro; auto; try rewrite B; try rewrite HS; try apply (i_stk _ s I); unfold pos; try lia; try (intros GS; specialize (C2 GS); lia).
    - apply wf_put; auto. apply (i_wf _ s I).
    - now apply lenN_put.
    - intros GQ j _ J. destruct C1 as [C1|C1].
      + apply (put_frame (en s) (buf s) c d (8 * c) (8 * (c + lenN d))); auto; lia.
      + rewrite (C1 GQ), put_nil by lia. reflexivity.
    - intros G D O. destruct HD as [HD|[HD|HD]]; try congruence.
      rewrite HD, put_nil; auto. lia.
  Qed.

  Lemma wf_map d : wf_bytes (map (fun x => x mod 256) d).
  Proof. apply Forall_forall. intros x Hx. apply in_map_iff in Hx. destruct Hx as (y & <- & _). lia. Qed.
  Lemma wf_firstn n d : wf_bytes d -> wf_bytes (firstn n d).
  Proof.
    intros W. unfold wf_bytes in *. rewrite Forall_forall in *. intros x Hx. apply W.
    rewrite <- (firstn_skipn n d). apply in_or_app. auto.
  Qed.

  (** The bytes the host actually writes *)
  Definition host_bytes (n : N) (d : list N) : list N := firstn (N.to_nat n) (map (fun x => x mod 256) d).
  Lemma host_bytes_len n d : lenN (host_bytes n d) <= n.
  Proof. unfold host_bytes, lenN. rewrite firstn_length. lia. Qed.
  Lemma host_bytes_wf n d : wf_bytes (host_bytes n d).
  Proof. apply wf_firstn, wf_map. Qed.
  Lemma host_bytes_nil n : host_bytes n [] = [].
  Proof. unfold host_bytes. cbn. now rewrite firstn_nil. Qed.
  Lemma host_write_eq b p n d : p + n <= lenN b -> host_write b p n d = Ok (put b p (host_bytes n d)).
  Proof.
    intros. unfold host_write. fold (host_bytes n d). rewrite splice_eq. pose proof (host_bytes_len n d).
    destruct (N.leb_spec (p + lenN (host_bytes n d)) (lenN b)); auto; lia.
  Qed.
  Lemma cstr_wf l : wf_bytes (cstr l).
  Proof.
    induction l; cbn [cstr]; [constructor|]. destruct (_ =? 0); constructor; auto; lia.
  Qed.
  Lemma got_str_wf r : wf_bytes (got_str r).
  Proof. unfold got_str. destruct (r_str r); [apply cstr_wf|constructor]. Qed.

  Ltac fetch1 :=
    rewrite fetch_ok; cbn [lift];
    let k := fresh "k" in let p := fresh "p" in let E := fresh "EF" in
    match goal with |- context [let (_, _) := fetchv ?w bc ?x in _] =>
      destruct (fetchv w bc x) as [k p] eqn:E end.
  Ltac fields := cbn [md buf ip cur boff en tr opt loops stk
     set_buf set_ip set_cur set_boff set_en set_tr set_opt set_loops set_stk] in *.
  Ltac inv I := let W := fresh "W" in let B := fresh "B8" in let P := fresh "P8" in let S := fresh "S8" in
    let L := fresh "L8" in pose proof I as [W B P S L]; unfold pos, dlen in P.
  Ltac bcase c := lazymatch c with
    | ?a <? ?b => destruct (N.ltb_spec a b)
    | ?a <=? ?b => destruct (N.leb_spec a b)
    | ?a =? ?b => destruct (N.eqb_spec a b)
    end.
  Ltac bspec := match goal with
    | |- all_act _ _ _ _ _ (if ?c then _ else _) => bcase c
    | |- all_act _ _ _ _ _ (lift (if ?c then _ else _) _) => bcase c
    | |- context [?a <? ?b] => destruct (N.ltb_spec a b)
    | |- context [?a <=? ?b] => destruct (N.leb_spec a b)
    | |- context [?a =? ?b] => destruct (N.eqb_spec a b)
    end.
  Ltac gs := match goal with
    | |- Gs -> _ => let G := fresh "G" in intros G; repeat match goal with X : Gs -> _ |- _ => specialize (X G) end; try lia
    | _ => idtac end.
  Ltac ub := try (exfalso; lia); lazymatch goal with
    | |- context [Ub UData] => cbn [bindR lift all_act]; split; [discriminate|split; [gs|discriminate]]
    | |- context [Undef UData] => cbn [bindR lift all_act]; split; [discriminate|split; [gs|discriminate]]
    | _ => idtac end; try lia.
  Ltac same I := apply rel_same; auto; unfold pos, dlen in *; fields; auto; gs; try lia.
  Ltac ask := unfold call; cbn [all_act]; split; [exact Logic.I|]; intros r HR;
    match goal with |- context [if r_ok r then _ else _] => destruct (r_ok r) eqn:ROK end.

  Lemma io_scalar_good op s w ew eop tw fw : Inv s -> boff s = 0 ->
    (forall v u, tw v = Ub u -> not_mem u) -> (forall v u, fw v = Ub u -> not_mem u) ->
    good op s (io_scalar bc s op w ew eop tw fw).
  Proof.
    intros I B0 HT HF. inv I. unfold io_scalar. fetch1.
    pose proof (wbytes_pos w) as WP. unfold dlen; fields. bspec.
    - destruct (opt s).
      + ask; cbn [all_act]; same I.
      + cbn [all_act]. same I.
    - destruct (md s) eqn:M.
      + ask; [|cbn [all_act]; same I].
        destruct (tw (got ew 0 r)) as [raw|u] eqn:ET; cbn [lift all_act]; [|apply not_mem_may; eauto].
        rewrite write_word_eq. fields. bspec; [|solve [ub]]. cbn [lift all_act]. fields.
        eapply rel_put with (c := cur s); [reflexivity|..]; fields; eauto; rewrite ?lenN_bytes_of, <- ?wbytes_nat; auto using wf_bytes_of; gs; try lia.
      + fields. rewrite read_word_eq by auto. bspec; [|solve [ub]]. cbn [lift].
        destruct (fw (val_of (en s) (sub (buf s) (cur s) (wbytes w)))) as [v|u] eqn:EF2; cbn [lift all_act]; [|apply not_mem_may; eauto].
        ask; cbn [all_act]; same I.
  Qed.

  Lemma i64_ub z u : i64 z = Ub u -> not_mem u.
  Proof. unfold i64. destruct (_ && _)%bool; inversion 1; subst. repeat split; discriminate. Qed.
  Lemma int_to_raw_ub t z u : int_to_raw t z = Ub u -> not_mem u.
  Proof.
    destruct t; cbn; try discriminate; try apply i64_ub.
    destruct (i =? 0)%Z; try discriminate; apply i64_ub.
  Qed.
  Lemma int_to_eng_ub t z u : int_to_eng t z = Ub u -> not_mem u.
  Proof.
    destruct t; cbn; try discriminate; try apply i64_ub.
    destruct (i =? 0)%Z; try discriminate; apply i64_ub.
  Qed.
  Lemma f_to_int_ub f a b x u : f_to_int f a b x = Ub u -> not_mem u.
  Proof.
    unfold f_to_int. destruct (f_trunc f x); [destruct (_ && _)%bool|]; inversion 1; subst; repeat split; discriminate.
  Qed.
  Lemma bindR_ub {A B} (x : result A) (k : A -> result B) u : bindR x k = Ub u ->
    x = Ub u \/ exists a, x = Ok a /\ k a = Ub u.
  Proof. destruct x; cbn; intros HX; [right; eauto|left; congruence]. Qed.
  Lemma to_wire_ub ty t v u : to_wire ty t v = Ub u -> not_mem u.
  Proof.
    destruct t; cbn [to_wire]; try discriminate; unfold f64_to_ity; intros HB; apply bindR_ub in HB;
      destruct HB as [HB|(a & HB & HB2)]; try discriminate; eauto using f_to_int_ub, int_to_raw_ub.
  Qed.
  Lemma from_wire_ub ty t v u : from_wire ty t v = Ub u -> not_mem u.
  Proof.
    destruct t; cbn [from_wire]; try discriminate; intros HB; apply bindR_ub in HB;
      destruct HB as [HB|(a & HB & HB2)]; try discriminate; eauto using int_to_eng_ub.
  Qed.
  Lemma f_to_wire_ub ty t v u : f_to_wire ty t v = Ub u -> not_mem u.
  Proof.
    destruct t; cbn [f_to_wire]; try discriminate; intros HB; apply bindR_ub in HB;
      destruct HB as [HB|(a & HB & HB2)]; try discriminate; eauto using int_to_raw_ub.
  Qed.
  Lemma f_from_wire_ub ty t v u : f_from_wire ty t v = Ub u -> not_mem u.
  Proof.
    destruct t; cbn [f_from_wire]; try discriminate; intros HB; apply bindR_ub in HB;
      destruct HB as [HB|(a & HB & HB2)]; eauto using f_to_int_ub; apply bindR_ub in HB2;
      destruct HB2 as [HB2|(a' & HB2 & HB3)]; try discriminate; eauto using int_to_eng_ub.
  Qed.

  Lemma io_int_good op s ty : Inv s -> boff s = 0 -> good op s (io_int bc s op ty).
  Proof. intros. apply io_scalar_good; auto; intros; [eapply to_wire_ub|eapply from_wire_ub]; eauto. Qed.
  Lemma io_float_good op s f : Inv s -> boff s = 0 -> good op s (io_float bc s op f).
  Proof. intros. apply io_scalar_good; auto; intros; [eapply f_to_wire_ub|eapply f_from_wire_ub]; eauto. Qed.

  Lemma io_bool_good op s : Inv s -> boff s = 0 -> good op s (io_bool bc s).
  Proof.
    intros I B0. inv I. unfold io_bool. fetch1. unfold dlen; fields. bspec.
    - destruct (opt s).
      + ask; cbn [all_act]; same I.
      + cbn [all_act]. same I.
    - destruct (md s) eqn:M.
      + ask; [|cbn [all_act]; same I]. bspec; [cbn [all_act]; same I|].
        change (write_u8 (buf s) (cur s) (got W1 0 r)) with (write_word W1 LE (buf s) (cur s) (got W1 0 r)).
        rewrite write_word_eq. fields. cbn [wbytes]. bspec; [|solve [ub]]. cbn [lift all_act]. fields.
        eapply rel_put with (c := cur s); [reflexivity|..]; fields; eauto; rewrite ?lenN_bytes_of; auto using wf_bytes_of; cbn; gs; try lia.
      + fields. change (read_u8 (buf s) (cur s)) with (read_word W1 LE (buf s) (cur s)).
        rewrite read_word_eq by auto. cbn [wbytes]. bspec; [|solve [ub]]. cbn [lift].
        bspec; [cbn [all_act]; same I|]. ask; cbn [all_act]; same I.
  Qed.

  (** ** Bits *)
  Lemma put_bits_good op s0 s v n k : Inv s -> Inv s0 ->
    (forall s', (md s' = md s /\ en s' = en s /\ stk s' = stk s /\ loops s' = loops s /\ Inv s' /\
       ip s' = ip s /\ lenN (buf s') = lenN (buf s) /\
       pos s <= pos s' /\ forall j, ~ (pos s <= j < pos s') -> sbit (en s) (buf s') j = sbit (en s) (buf s) j) ->
       good op s0 (k s')) ->
    good op s0 (put_bits s v n k).
  Proof.
    intros I I0 HK. inv I. unfold put_bits.
    pose proof (write_bits_spec (en s) (buf s) (cur s) (boff s) v n W B8) as S.
    destruct (write_bits (en s) (buf s) (cur s) (boff s) v n) as [[[b' c'] o']|u]; cbn [lift all_act].
    - cbv zeta in S. destruct S as (W' & O' & P' & LB & FR). apply HK. fields.
      repeat split; unfold pos, dlen; fields; auto; try lia.
      intros j J. rewrite FR.
      destruct (N.leb_spec (8 * cur s + boff s) j),
       (N.ltb_spec j (8 * cur s + boff s + N.min n (8 * lenN (buf s) - (8 * cur s + boff s)))); cbn [andb]; auto. lia.
    - destruct S as [-> _]. repeat split; discriminate.
  Qed.
  Lemma get_bits_good op s0 s n k : Inv s -> Inv s0 ->
    (forall v s', (md s' = md s /\ en s' = en s /\ stk s' = stk s /\ loops s' = loops s /\ Inv s' /\
       ip s' = ip s /\ buf s' = buf s /\ pos s <= pos s') ->
       good op s0 (k v s')) ->
    good op s0 (get_bits s n k).
  Proof.
    intros I I0 HK. inv I. unfold get_bits.
    pose proof (read_bits_spec (en s) (buf s) (cur s) (boff s) n W B8) as S.
    destruct (read_bits (en s) (buf s) (cur s) (boff s) n) as [[[v c'] o']|u]; cbn [lift all_act].
    - cbv zeta in S. destruct S as (O' & P' & _). apply HK. fields.
      repeat split; unfold pos, dlen; fields; auto; try lia.
    - destruct S as [-> _]. repeat split; discriminate.
  Qed.
  Lemma Inv_ip s p : Inv s -> Inv (set_ip s p).
  Proof. intros []. constructor; auto. Qed.

  Ltac bits_enc s M :=
    let s' := fresh "s'" in let H := fresh in
    apply put_bits_good; [now apply Inv_ip|assumption|]; intros s' H;
    cbn [all_act]; destruct H as (? & ? & ? & ? & [? ? ? ? ?] & ? & ? & ? & ?); fields;
    apply rel_intro; unfold pos, dlen in *; fields; auto; gs; try lia; try congruence;
    try (intros; congruence).

  Lemma io_bit_u_good op s : Inv s -> good op s (io_bit_u bc s).
  Proof.
    intros I. inv I. unfold io_bit_u. fetch1. fetch1. fields. destruct (md s) eqn:M.
    - ask; [|cbn [all_act]; same I]. bits_enc s M.
    - apply get_bits_good; [now apply Inv_ip|auto|]. intros v s' (? & ? & ? & ? & [? ? ? ? ?] & ? & ? & ?).
      fields. ask; cbn [all_act]; apply rel_same; unfold pos, dlen in *; fields; auto; gs; try lia; try congruence.
  Qed.
  Lemma io_bit_i_good op s : Inv s -> good op s (io_bit_i bc s).
  Proof.
    intros I. inv I. unfold io_bit_i. fetch1. fetch1. fields. destruct (md s) eqn:M.
    - ask; [|cbn [all_act]; same I]. bits_enc s M.
    - apply get_bits_good; [now apply Inv_ip|auto|]. intros v s' (? & ? & ? & ? & [? ? ? ? ?] & ? & ? & ?).
      fields. destruct (sign_extend v k0) as [x|u] eqn:ES; cbn [lift].
      + ask; cbn [all_act]; apply rel_same; unfold pos, dlen in *; fields; auto; gs; try lia; try congruence.
      + cbn [all_act]. unfold sign_extend in ES. destruct (64 <=? k0); [discriminate|].
        destruct (k0 =? 0); inversion ES. repeat split; discriminate.
  Qed.
  Lemma io_bit_bool_good op s : Inv s -> good op s (io_bit_bool bc s).
  Proof.
    intros I. inv I. unfold io_bit_bool. fetch1. fields. destruct (md s) eqn:M.
    - ask; [|cbn [all_act]; same I]. bspec; [cbn [all_act]; same I|]. bits_enc s M.
    - apply get_bits_good; [now apply Inv_ip|auto|]. intros v s' (? & ? & ? & ? & [? ? ? ? ?] & ? & ? & ?).
      fields. ask; cbn [all_act]; apply rel_same; unfold pos, dlen in *; fields; auto; gs; try lia; try congruence.
  Qed.
  Lemma align_pad_good op s : Inv s -> op = 0x23 -> (Gs -> ~ haz_pad bc op s) -> good op s (align_pad bc s).
  Proof.
    intros I OP NH. inv I. unfold align_pad. unfold haz_pad in NH. fetch1. fields. destruct (md s) eqn:M.
    - bits_enc s M.
    - cbn [all_act]. cbn [fst] in NH.
      assert (NH' : Gs -> ~ 8 * dlen s < pos s + k) by (intros G X; apply NH; auto).
      apply rel_same; unfold pos, dlen in *; fields; auto; gs; try lia.
  Qed.
  Lemma align_fill_good op s : Inv s -> good op s (align_fill bc s).
  Proof.
    intros I. inv I. unfold align_fill. fetch1. fields. bspec; [|cbn [all_act]; same I].
    destruct (md s) eqn:M.
    - bits_enc s M.
    - apply get_bits_good; [now apply Inv_ip|auto|]. intros v s' (? & ? & ? & ? & [? ? ? ? ?] & ? & ? & ?).
      fields. cbn [all_act]; apply rel_same; unfold pos, dlen in *; fields; auto; gs; try lia; try congruence.
  Qed.

  (** ** Strings *)
  Lemma find_nul_spec b n : forall p acc, p + N.of_nat n <= lenN b ->
    exists k, k <= N.of_nat n /\ find_nul b p n acc = Ok (acc + k) /\
      (forall i, i < k -> nthN b (p + i) <> 0) /\ (k < N.of_nat n -> nthN b (p + k) = 0).
  Proof.
    induction n; intros p acc HL; cbn [find_nul].
    - exists 0. repeat split; try lia. f_equal. lia.
    - rewrite mem_eq. bspec; [|solve [ub]]. cbn [bindR]. bspec.
      + exists 0. repeat split; try lia. { f_equal. lia. } intros _. now rewrite N.add_0_r.
      + destruct (IHn (p + 1) (acc + 1)) as (k & K1 & K2 & K3 & K4); [lia|].
        exists (k + 1). rewrite K2. repeat split; try lia.
        * f_equal. lia.
        * intros i Hi. destruct (N.eqb_spec i 0). { subst. now rewrite N.add_0_r. }
          replace (p + i) with (p + 1 + (i - 1)) by lia. apply K3. lia.
        * intros. replace (p + (k + 1)) with (p + 1 + k) by lia. apply K4. lia.
  Qed.

  Lemma str_null_good op s : Inv s -> boff s = 0 -> good op s (str_null bc s).
  Proof.
    intros I B0. inv I. unfold str_null. fetch1. fetch1. unfold dlen; fields. destruct (md s) eqn:M.
    - cbn [all_act]. split; [exact Logic.I|]. intros r HR. destruct (r_ok r) eqn:ROK.
      + set (len := if k0 <? lenN (got_str r) then k0 else lenN (got_str r)).
        assert (LL : len <= lenN (got_str r)) by (subst len; bspec; lia).
        bspec; [cbn [all_act]; same I|].
        assert (LF : lenN (firstn (N.to_nat len) (got_str r)) = len) by now apply lenN_firstn.
        rewrite splice_eq, LF. bspec; [|solve [ub]]. cbn [lift].
        rewrite sto_eq, lenN_put by lia. bspec; [|solve [ub]]. cbn [lift all_act]. fields.
        replace (cur s + len) with (cur s + lenN (firstn (N.to_nat len) (got_str r))) at 1 by lia.
        assert (L1 : lenN [0] = 1) by reflexivity.
        rewrite put_put by lia.
        eapply rel_put with (c := cur s); [reflexivity|..]; fields; eauto; rewrite ?lenN_app, ?LF, ?L1; auto; gs; try lia.
        apply wf_app; [apply wf_firstn, got_str_wf|repeat constructor].
      + destruct (opt s); cbn [all_act]; same I.
    - fields. destruct (N.leb_spec (cur s) (lenN (buf s))).
      2:{ set (n := N.to_nat _). destruct n as [|n]; cbn [find_nul].
          - cbn [lift]. fields. bspec; [|lia]. cbn [all_act]. same I.
          - rewrite mem_eq. destruct (N.ltb_spec (cur s) (lenN (buf s))); [lia|]. ub. }
      set (n := if lenN (buf s) - cur s <? k0 then lenN (buf s) - cur s else k0).
      assert (NL : n <= lenN (buf s) - cur s) by (subst n; bspec; lia).
      destruct (find_nul_spec (buf s) (N.to_nat n) (cur s) 0 ltac:(lia)) as (len & K1 & K2 & _ & _).
      rewrite K2. cbn [lift]. rewrite N.add_0_l. fields. bspec; [cbn [all_act]; same I|].
      rewrite slice_eq. bspec; [|solve [ub]]. cbn [lift].
      unfold call. cbn [all_act]. split.
      { cbn. unfold dlen. rewrite lenN_sub by lia. split; [lia|now apply wf_sub]. }
      intros r HR. destruct (r_ok r) eqn:ROK; [|cbn [all_act]; same I].
      rewrite host_write_eq by lia. cbn [lift all_act]. fields.
      pose proof (host_bytes_len len (r_bytes r)).
      eapply rel_put with (c := cur s); [reflexivity|..]; fields; eauto using host_bytes_wf; gs; try lia.
      right; right. intros G. destruct HR as [_ HR]. rewrite (HR G). apply host_bytes_nil.
  Qed.

  Lemma str_pre_good op s w : Inv s -> boff s = 0 -> good op s (str_pre bc s op w).
  Proof.
    intros I B0. inv I. unfold str_pre. fetch1. unfold dlen; fields. pose proof (wbytes_pos w) as WP.
    destruct (md s) eqn:M.
    - cbn [all_act]. split; [exact Logic.I|]. intros r HR. destruct (r_ok r) eqn:ROK.
      + set (len := if 2 ^ (8 * wbytes w) - 1 <? lenN (got_str r) then 2 ^ (8 * wbytes w) - 1 else lenN (got_str r)).
        assert (LL : len <= lenN (got_str r)) by (subst len; bspec; lia).
        clearbody len.
        bspec; [cbn [all_act]; same I|].
        assert (LF : lenN (firstn (N.to_nat len) (got_str r)) = len) by now apply lenN_firstn.
        rewrite write_word_eq. fields. bspec; [|solve [ub]]. cbn [lift].
        assert (LW : lenN (bytes_of (en s) (nbytes w) len) = wbytes w)
          by (rewrite lenN_bytes_of; symmetry; apply wbytes_nat).
        rewrite splice_eq, lenN_put, LF by lia. bspec; [|solve [ub]]. cbn [lift all_act]. fields.
        replace (cur s + wbytes w) with (cur s + lenN (bytes_of (en s) (nbytes w) len)) at 1 by lia.
        rewrite put_put by lia.
        eapply rel_put with (c := cur s); [reflexivity|..]; fields; eauto; rewrite ?lenN_app, ?LF, ?LW; auto; gs; try lia.
        apply wf_app; [apply wf_bytes_of|apply wf_firstn, got_str_wf].
      + destruct (opt s); cbn [all_act]; same I.
    - bspec; [cbn [all_act]; same I|]. fields. rewrite read_word_eq by auto. bspec; [|solve [ub]]. cbn [lift].
      set (len := val_of (en s) (sub (buf s) (cur s) (wbytes w))). clearbody len. fields.
      bspec; [cbn [all_act]; same I|].
      rewrite slice_eq. bspec; [|solve [ub]]. cbn [lift].
      unfold call. cbn [all_act]. split.
      { cbn. unfold dlen. rewrite lenN_sub by lia. split; [lia|now apply wf_sub]. }
      intros r HR. destruct (r_ok r) eqn:ROK; [|cbn [all_act]; same I].
      rewrite host_write_eq by lia. cbn [lift all_act]. fields.
      pose proof (host_bytes_len len (r_bytes r)).
      eapply rel_put with (c := cur s + wbytes w); [reflexivity|..]; fields; eauto using host_bytes_wf; gs; try lia.
      right; right. intros G. destruct HR as [_ HR]. rewrite (HR G). apply host_bytes_nil.
  Qed.

  (** ** Arrays *)

  (** Opcodes without special treatment in [rel] and [may] *)
  Definition plain (op : N) : Prop := op <> 0x01 /\ op <> 0x02 /\ op <> 0x65 /\ op <> 0x53.
  (** Composition: [s1] is an intermediate state of the same instruction *)
  Lemma rel_trans op s s1 s2 : plain op -> rel op s s1 -> rel op s1 s2 -> rel op s s2.
  Proof.
    intros (O1 & O2 & O3 & O4) [A1 A2 A3 A4 A5 A6 A7] [B1 B2 B3 B4 B5 B6 B7]. constructor; auto; try congruence; try lia.
    - intros G j NH J. rewrite <- A7 at 1 by auto. rewrite B5; [|auto|unfold haz_emit; tauto|lia]. rewrite A7 by auto. apply A5; auto; [unfold haz_emit; tauto|lia].
    - intros G D O. rewrite B6, A6; auto; congruence.
    - intros. rewrite B7, A7; auto.
  Qed.
  Lemma good_trans op s s1 a : plain op -> rel op s s1 -> good op s1 a -> good op s a.
  Proof.
    intros O R. apply all_act_mono; auto.
    - intros s2. now apply rel_trans.
    - intros _ s2. now apply rel_trans.
    - intros u (U1 & U2 & U3). split; [auto|]. split; [auto|]. intros UE. destruct (U3 UE). destruct O. tauto.
    - intros rq. unfold lent. destruct (rq_pl rq); auto. now rewrite (e_len _ _ _ R).
  Qed.

  Lemma loop_push_good op s n : Inv s -> good op s (loop_push s n).
  Proof.
    intros I. inv I. unfold loop_push, max_loop_depth. bspec; [cbn [all_act]; same I|].
    unfold arr_push. bspec; [|solve [ub]]. cbn [lift all_act]. same I. rewrite lenN_cons. lia.
  Qed.
  Lemma try_bulk_good op s n : plain op -> Inv s -> boff s = 0 ->
    good op s (try_bulk bc s n (fun s => loop_push s n)).
  Proof.
    intros O I B0. inv I. unfold try_bulk. bspec; [now apply loop_push_good|].
    bspec; [now apply loop_push_good|].
    rewrite !mem_eq.
    destruct (N.ltb_spec (ip s) (lenN bc)), (N.ltb_spec (ip s + 3) (lenN bc)),
      (N.ltb_spec (ip s + 1) (lenN bc)), (N.ltb_spec (ip s + 2) (lenN bc)); try lia. cbn [lift].
    destruct (_ && _)%bool; [|now apply loop_push_good].
    unfold dlen. bspec; [now apply loop_push_good|].
    rewrite slice_eq. bspec; [|solve [ub]]. cbn [lift all_act]. split.
    { cbn. unfold dlen. rewrite lenN_sub by lia. split; [lia|now apply wf_sub]. }
    intros r HR. rewrite host_write_eq by lia. cbn [lift]. fields.
    pose proof (host_bytes_len n (r_bytes r)).
    destruct (r_ok r) eqn:ROK.
    - cbn [all_act]. eapply rel_put with (c := cur s); [reflexivity|..]; fields; eauto using host_bytes_wf; gs; try lia.
      right; right. intros G. destruct HR as [_ HR]. rewrite (HR G). apply host_bytes_nil.
    - set (s1 := set_buf s _).
      assert (R1 : rel op s s1).
      { eapply rel_put with (c := cur s); [reflexivity|..]; subst s1; fields; eauto using host_bytes_wf; gs; try lia.
        - right; right. intros G. destruct HR as [_ HR]. rewrite (HR G). apply host_bytes_nil.
        - right. intros G. destruct HR as [HR _]. rewrite (HR G ROK). apply host_bytes_nil. }
      eapply good_trans; eauto. apply loop_push_good. apply (e_inv _ _ _ R1).
  Qed.
  Lemma enter_array_good op s n : plain op -> Inv s -> boff s = 0 ->
    good op s (enter_array bc s n).
  Proof.
    intros O I B0. inv I. unfold enter_array. bspec; [now apply try_bulk_good|]. cbn [all_act]. same I.
  Qed.
  Lemma arr_pre_good op s w : plain op -> Inv s -> boff s = 0 ->
    good op s (arr_pre bc s op w).
  Proof.
    intros O I B0. inv I. unfold arr_pre. fetch1. unfold dlen; fields. pose proof (wbytes_pos w) as WP.
    destruct (md s) eqn:M.
    - ask; [|cbn [all_act]; same I]. bspec; [cbn [all_act]; same I|].
      rewrite write_word_eq. bspec; [|solve [ub]]. cbn [lift].
      match goal with |- good _ _ (enter_array _ ?x _) => assert (R1 : rel op s x) end.
      { eapply rel_put with (c := cur s); [reflexivity|..]; fields; eauto; rewrite ?lenN_bytes_of, <- ?wbytes_nat; auto using wf_bytes_of; gs; try lia. }
      eapply good_trans; [auto|exact R1|]. apply enter_array_good; auto. apply (e_inv _ _ _ R1).
    - bspec; [cbn [all_act]; same I|]. fields. rewrite read_word_eq by auto. bspec; [|solve [ub]]. cbn [lift].
      ask; [|cbn [all_act]; same I].
      match goal with |- good _ _ (enter_array _ ?x _) => assert (R1 : rel op s x) by same I end.
      eapply good_trans; [auto|exact R1|]. apply enter_array_good; auto. apply (e_inv _ _ _ R1).
  Qed.
  Lemma arr_fixed_good op s : plain op -> Inv s -> boff s = 0 ->
    good op s (arr_fixed bc s).
  Proof.
    intros O I B0. inv I. unfold arr_fixed. fetch1. fetch1. ask; [|cbn [all_act]; same I].
    assert (R1 : rel op s (set_ip s p0)) by same I.
    eapply good_trans; [auto|exact R1|]. apply enter_array_good; auto. apply (e_inv _ _ _ R1).
  Qed.
  Lemma arr_eof_good op s : Inv s -> good op s (arr_eof bc s).
  Proof.
    intros I. inv I. unfold arr_eof. fetch1. fields. unfold max_loop_depth. bspec; [cbn [all_act]; same I|].
    unfold arr_push. bspec; [|solve [ub]]. cbn [lift]. fields.
    bspec; cbn [all_act]; same I; rewrite lenN_cons; lia.
  Qed.
  Lemma arr_dynamic_good op s : plain op -> Inv s -> boff s = 0 ->
    good op s (arr_dynamic bc s).
  Proof.
    intros O I B0. inv I. unfold arr_dynamic. fetch1. fetch1. ask; [|cbn [all_act]; same I].
    bspec; [cbn [all_act]; same I|]. clear HR ROK. unfold call; cbn [all_act]; split; [exact Logic.I|]; intros r2 HR2; destruct (r_ok r2); [|cbn [all_act]; same I].
    assert (R1 : rel op s (set_ip s p0)) by same I.
    eapply good_trans; [auto|exact R1|]. apply enter_array_good; auto. apply (e_inv _ _ _ R1).
  Qed.
  Lemma arr_end_good op s : Inv s -> good op s (arr_end s).
  Proof.
    intros I. inv I. unfold arr_end. destruct (loops s) as [|[start rem] rest] eqn:EL; [cbn [all_act]; same I; rewrite EL; auto|].
    rewrite lenN_cons in L8.
    destruct (rem =? eof_mark).
    - bspec; [cbn [all_act]; same I; rewrite EL, lenN_cons; lia|]. ask; cbn [all_act]; same I; rewrite ?EL, ?lenN_cons; lia.
    - set (rm := if 0 <? rem then rem - 1 else rem). clearbody rm.
      destruct (0 <? rm); [cbn [all_act]; same I; rewrite lenN_cons; lia|].
      ask; cbn [all_act]; same I; rewrite ?lenN_cons; lia.
  Qed.
  Lemma raw_bytes_good op s : Inv s -> boff s = 0 -> good op s (raw_bytes bc s).
  Proof.
    intros I B0. inv I. unfold raw_bytes. fetch1. fetch1. unfold dlen; fields. bspec; [cbn [all_act]; same I|].
    rewrite slice_eq. bspec; [|solve [ub]]. cbn [lift all_act]. split.
    { cbn. unfold dlen. rewrite lenN_sub by lia. split; [lia|now apply wf_sub]. }
    intros r HR. rewrite host_write_eq by lia. cbn [lift]. fields.
    pose proof (host_bytes_len k0 (r_bytes r)).
    destruct (r_ok r) eqn:ROK; cbn [all_act];
      (eapply rel_put with (c := cur s); [reflexivity|..]; fields; eauto using host_bytes_wf; gs; try lia).
    - right; right. intros G. destruct HR as [_ HR]. rewrite (HR G). apply host_bytes_nil.
    - right; right. intros G. destruct HR as [_ HR]. rewrite (HR G). apply host_bytes_nil.
    - right. intros G. destruct HR as [HR _]. rewrite (HR G ROK). apply host_bytes_nil.
  Qed.

  (** ** Validation *)
  Lemma const_write_good s : Inv s -> boff s = 0 -> good 0x41 s (const_write bc s).
  Proof.
    intros I B0. inv I. unfold const_write. fetch1.
    destruct (int_type k) as [[w [|]]|]; try (cbn [all_act]; same I).
    fetch1. pose proof (wbytes_pos w) as WP. unfold dlen; fields. bspec; [cbn [all_act]; same I|].
    rewrite write_word_eq. bspec; [|solve [ub]]. cbn [lift all_act].
    eapply rel_put with (c := cur s); [reflexivity|..]; fields; eauto; rewrite ?lenN_bytes_of, <- ?wbytes_nat; auto using wf_bytes_of; gs; try lia.
  Qed.
  Lemma const_check_good op s : Inv s -> boff s = 0 -> good op s (const_check bc s).
  Proof.
    intros I B0. inv I. unfold const_check. fetch1. fetch1.
    destruct (int_type k0) as [[w sg]|]; try (cbn [all_act]; same I).
    fetch1. pose proof (wbytes_pos w) as WP. unfold dlen; fields. bspec; [cbn [all_act]; same I|].
    destruct (md s) eqn:M.
    - rewrite write_word_eq. bspec; [|solve [ub]]. cbn [lift all_act].
      eapply rel_put with (c := cur s); [reflexivity|..]; fields; eauto; rewrite ?lenN_bytes_of, <- ?wbytes_nat; auto using wf_bytes_of; gs; try lia.
    - rewrite read_word_eq by auto. bspec; [|solve [ub]]. cbn [lift]. bspec; [|cbn [all_act]; same I].
      ask; cbn [all_act]; same I.
  Qed.
  Lemma enum_scan_ok w n : forall p actual, exists x, enum_scan w bc p actual n = Ok x.
  Proof.
    induction n; intros p actual; cbn [enum_scan]; eauto.
    rewrite fetch_ok. cbn [bindR]. destruct (fetchv w bc p) as [v p']. destruct (_ =? _); eauto.
  Qed.
  Lemma enum_check_good op s : Inv s -> op = 0x4B -> (Gs -> ~ haz_enum bc op s) -> good op s (enum_check bc s).
  Proof.
    intros I OP NH. inv I. unfold enum_check. unfold haz_enum in NH. fetch1. fetch1.
    destruct (int_type k) as [[w sg]|] eqn:ET; try (cbn [all_act]; same I).
    assert (HC : Gs -> wbytes w <= cur s).
    { intros G. destruct (N.leb_spec (wbytes w) (cur s)); auto. exfalso. apply NH; auto. split; auto.
      eexists. split; [cbn; eauto|]. auto. }
    pose proof (wbytes_pos w). unfold read_back. bspec; [solve [ub]|]. rewrite read_word_eq by auto. bspec; [|solve [ub]].
    cbn [lift]. edestruct (enum_scan_ok w (N.to_nat k0)) as [x ->]. cbn [lift].
    destruct x; cbn [all_act]; same I.
  Qed.
  Lemma range_go_good op s s0 w lt q : Inv s -> Inv s0 -> s0 = s ->
    good op s (
      let* (mn, p) := fetch w bc q in
      let* (mx, p) := fetch w bc p in
      let s := set_ip s0 p in
      if cur s <? wbytes w then Halt EOob s
      else
        let* v := read_word w (en s) (buf s) (cur s - wbytes w) in
        if lt v mn || lt mx v then Halt EValidation s else Cont s).
  Proof.
    intros I _ ->. inv I. fetch1. fetch1. pose proof (wbytes_pos w). fields. bspec; [cbn [all_act]; same I|].
    rewrite read_word_eq by auto. bspec; [|solve [ub]]. cbn [lift]. destruct (_ || _)%bool; cbn [all_act]; same I.
  Qed.
  Lemma range_check_good op s : Inv s -> good op s (range_check bc s).
  Proof.
    intros I. unfold range_check. fetch1. inv I.
    destruct (int_type k) as [t|]; [now apply range_go_good|].
    destruct (k =? 24); [now apply range_go_good|]. destruct (k =? 25); [now apply range_go_good|].
    cbn [all_act]. same I.
  Qed.
  Lemma crc_good op s w32 : Inv s -> boff s = 0 -> good op s (crc_op bc s w32).
  Proof.
    intros I B0. inv I. unfold crc_op. set (w := if w32 then W4 else W2). clearbody w.
    fetch1. fetch1. fetch1. fetch1. fields. pose proof (wbytes_pos w).
    rewrite slice_eq. bspec; [|solve [ub]]. cbn [lift]. unfold dlen; fields. bspec; [cbn [all_act]; same I|].
    destruct (md s) eqn:M.
    - rewrite write_word_eq. bspec; [|solve [ub]]. cbn [lift all_act].
      eapply rel_put with (c := cur s); [reflexivity|..]; fields; eauto; rewrite ?lenN_bytes_of, <- ?wbytes_nat; auto using wf_bytes_of; gs; try lia.
    - rewrite read_word_eq by auto. bspec; [|solve [ub]]. cbn [lift]. bspec; cbn [all_act]; same I.
  Qed.
  Lemma trans_poly_good op s : Inv s -> good op s (trans_poly bc s).
  Proof.
    intros I. inv I. unfold trans_poly. fetch1. bspec; [cbn [all_act]; same I|].
    rewrite slice_eq. bspec; [|solve [ub]]. cbn [lift all_act]. same I.
  Qed.
  Lemma trans_spline_good op s : Inv s -> good op s (trans_spline bc s).
  Proof.
    intros I. inv I. unfold trans_spline. fetch1. bspec; [cbn [all_act]; same I|].
    rewrite slice_eq. bspec; [|solve [ub]]. cbn [lift all_act]. same I.
  Qed.

  (** ** Control flow *)
  Lemma jump_to_good op s s1 base off : Inv s -> buf s1 = buf s -> md s1 = md s -> en s1 = en s ->
    cur s1 = cur s -> boff s1 = boff s -> lenN (stk s1) <= 8 -> loops s1 = loops s ->
    good op s (jump_to bc s1 base off).
  Proof.
    intros I. intros. inv I. unfold jump_to.
    destruct (_ <? 0)%Z; [|bspec]; cbn [all_act]; apply rel_same; auto; unfold pos, dlen in *; fields; auto; gs; try lia; try congruence.
  Qed.
  Lemma switch_scan_ok n : forall p d f t, exists x, switch_scan bc p n d f t = Ok x.
  Proof.
    induction n; intros p d f t; cbn [switch_scan]; eauto.
    rewrite fetch_ok. cbn [bindR]. destruct (fetchv W8 bc p) as [v p'].
    rewrite fetch_ok. cbn [bindR]. destruct (fetchv W4 bc p') as [v' p'']. destruct (_ && _)%bool; eauto.
  Qed.
  Lemma switch_good op s : Inv s -> good op s (switch_op bc s).
  Proof.
    intros I. inv I. unfold switch_op. fetch1. fetch1. bspec; [cbn [all_act]; same I|].
    fetch1. fetch1. ask; [|cbn [all_act]; same I].
    edestruct (switch_scan_ok (N.to_nat k1)) as [x ->]. cbn [lift]. apply jump_to_good; fields; auto.
  Qed.
  Lemma switch_table_good op s : Inv s -> op = 0x53 -> lenN bc < 2 ^ 62 ->
    good op s (switch_table bc s).
  Proof.
    intros I OP BL. inv I. unfold switch_table.
    destruct (fetchv W2 bc (ip s)) as [key p1] eqn:F1.
    destruct (fetchv W4 bc p1) as [rl p2] eqn:F2.
    destruct (fetchv W8 bc (p2 + rl)) as [mn t] eqn:F3.
    destruct (fetchv W8 bc t) as [mx t2] eqn:F4.
    rewrite fetch_ok, F1. cbn [lift]. rewrite fetch_ok, F2. cbn [lift].
    destruct (_ || _)%bool eqn:EO; [cbn [all_act]; same I|].
    rewrite fetch_ok, F3. cbn [lift]. rewrite fetch_ok, F4. cbn [lift]. fetch1.
    ask; [|cbn [all_act]; same I].
    destruct (_ && _)%bool eqn:ED; [|apply jump_to_good; fields; auto].
    set (d := got W8 0 r) in *.
    destruct (N.ltb_spec (mx - mn) (2 ^ 61)) as [HX|HX].
    2:{ bspec; [cbn [all_act]; same I|]. rewrite slice_eq. bspec.
        - cbn [lift]. apply jump_to_good; fields; auto.
        - cbn [lift all_act]. split; [discriminate|]. split; [discriminate|]. intros _.
          split; [auto|]. rewrite F1. cbn [snd]. rewrite F2, F3, F4. split; [lia|auto]. }
    assert (HM : d - mn < 2 ^ 61) by lia.
    assert (TB : p <= lenN bc).
    { apply fetchv_pos in EF, F3, F4. lia. }
    assert (E1 : ((d - mn) * 4) mod 2 ^ 64 = (d - mn) * 4) by (apply N.mod_small; lia).
    rewrite E1.
    assert (E2 : (p + (d - mn) * 4) mod 2 ^ 64 = p + (d - mn) * 4) by (apply N.mod_small; lia).
    rewrite E2.
    assert (E3 : (p + (d - mn) * 4 + 4) mod 2 ^ 64 = p + (d - mn) * 4 + 4) by (apply N.mod_small; lia).
    rewrite E3. clear E1 E2 E3.
    bspec; [cbn [all_act]; same I|]. rewrite slice_eq. bspec; [|solve [ub]]. cbn [lift].
    apply jump_to_good; fields; auto.
  Qed.
  Lemma pop_good op s0 s k : Inv s0 -> buf s = buf s0 -> md s = md s0 -> en s = en s0 -> cur s = cur s0 ->
    boff s = boff s0 -> lenN (stk s) <= 8 -> loops s = loops s0 ->
    (forall v r, stk s = v :: r -> lenN r + 1 = lenN (stk s) -> good op s0 (k v (set_stk s r))) ->
    good op s0 (pop s k).
  Proof.
    intros I. intros. unfold pop. inv I. destruct (stk s) as [|v r] eqn:ES.
    - cbn [all_act]. apply rel_same; auto; unfold pos, dlen in *; rewrite ?ES; try lia; try congruence; auto.
    - apply H6; auto. rewrite lenN_cons. auto.
  Qed.
  Lemma push_good op s0 s v : Inv s0 -> buf s = buf s0 -> md s = md s0 -> en s = en s0 -> cur s = cur s0 ->
    boff s = boff s0 -> lenN (stk s) <= 8 -> loops s = loops s0 ->
    good op s0 (push s v).
  Proof.
    intros I. intros. unfold push, max_expr_stack, arr_push. inv I. bspec.
    - cbn [all_act]. apply rel_same; auto; unfold pos, dlen in *; try lia; congruence.
    - bspec; [|solve [ub]]. cbn [lift all_act]. apply rel_same; auto; unfold pos, dlen in *; fields; rewrite ?lenN_cons; try lia; congruence.
  Qed.
  Lemma jump_if_not_good op s : Inv s -> good op s (jump_if_not bc s).
  Proof.
    intros I. inv I. unfold jump_if_not. fetch1. apply pop_good; fields; auto. intros v rs ES HL.
    bspec; [apply jump_to_good; fields; auto; lia|]. cbn [all_act]. same I.
  Qed.
  Lemma jump_good op s : Inv s -> good op s (jump_op bc s).
  Proof. intros I. inv I. unfold jump_op. fetch1. apply jump_to_good; fields; auto. Qed.
  Lemma load_good op s : Inv s -> good op s (load_ctx bc s).
  Proof.
    intros I. inv I. unfold load_ctx. fetch1. ask; [|cbn [all_act]; same I]. apply push_good; fields; auto.
  Qed.
  Lemma store_good op s : Inv s -> good op s (store_ctx bc s).
  Proof.
    intros I. inv I. unfold store_ctx. fetch1. apply pop_good; fields; auto. intros v rs ES HL.
    ask; cbn [all_act]; same I.
  Qed.
  Lemma emit_good op s : Inv s -> op = 0x65 -> (Gs -> boff s = 0) -> good op s (emit bc s).
  Proof.
    intros I OP B0. inv I. unfold emit. fetch1. apply pop_good; fields; auto. intros v rs ES HL. fields.
    destruct (emit_width k) as [w|]; [|cbn [all_act]; same I].
    pose proof (wbytes_pos w). unfold dlen; fields. bspec; [cbn [all_act]; same I|].
    destruct (md s) eqn:M.
    - rewrite write_word_eq. bspec; [|solve [ub]]. cbn [lift all_act].
      assert (LW : forall x, lenN (bytes_of (en s) (nbytes w) x) = wbytes w)
          by (intros; rewrite lenN_bytes_of; symmetry; apply wbytes_nat).
      apply rel_intro; auto; unfold pos; fields; auto; try lia.
      + apply wf_put; auto using wf_bytes_of. rewrite LW. lia.
      + apply lenN_put. rewrite LW. lia.
      + intros G j NE J. destruct (N.eq_dec (boff s) 0) as [B|B].
        * eapply put_frame; rewrite ?LW; try exact J; lia.
        * assert (HE : haz_emit op s) by (split; auto). specialize (NE HE).
          eapply (put_frame (en s) (buf s) (cur s) _ (8 * cur s) (8 * (cur s + wbytes w)));
            rewrite ?LW; unfold pos in NE; fields; lia.
      + congruence.
    - rewrite read_word_eq by auto. bspec; [|solve [ub]]. cbn [lift]. destruct (emit_matches _ _ _); cbn [all_act]; same I.
  Qed.
  Lemma un_eval_ub o a u : un_eval lm o a = AU u -> not_mem u.
  Proof.
    destruct o; cbn; try discriminate;
    repeat match goal with
    | |- (if ?b then _ else _) = _ -> _ => destruct b; try discriminate
    end; try (intros X; inversion X; repeat split; discriminate).
    destruct (f_to_int _ _ _ a) eqn:EF; inversion 1; subst. eapply f_to_int_ub; eauto.
  Qed.
  Lemma bin_eval_ub o a b u : bin_eval lm o a b = AU u -> not_mem u.
  Proof.
    destruct o; cbn; try discriminate;
    repeat match goal with
    | |- (if ?b then _ else _) = _ -> _ => destruct b; try discriminate
    end; try (intros X; inversion X; repeat split; discriminate).
  Qed.
  Lemma un_good op s o : Inv s -> good op s (un_op lm s o).
  Proof.
    intros I. inv I. unfold un_op. apply pop_good; auto. intros v rs ES HL.
    destruct (un_eval lm o v) eqn:EU.
    - apply push_good; fields; auto. lia.
    - cbn [all_act]. same I.
    - cbn [all_act]. apply not_mem_may. eapply un_eval_ub; eauto.
  Qed.
  Lemma bin_good op s o : Inv s -> good op s (bin_op lm s o).
  Proof.
    intros I. inv I. unfold bin_op. apply pop_good; auto. intros v rs ES HL.
    apply pop_good; fields; auto; [lia|]. intros v2 r2 ES2 HL2.
    destruct (bin_eval lm o v2 v) eqn:EU.
    - apply push_good; fields; auto. lia.
    - cbn [all_act]. same I.
    - cbn [all_act]. apply not_mem_may. eapply bin_eval_ub; eauto.
  Qed.

  (** ** All instructions *)
  Lemma classify_op_sound (P : N -> opclass -> Prop) (op : N) :
    op < 256 -> (forall k, k < 256 -> P k (classify k)) -> P op (classify op).
  Proof. auto. Qed.

  (** Instruction families whose code relies on alignment are in the alignment table *)
  Definition needs_align (c : opclass) : bool :=
    match c with
    | CConstWrite | CConstCheck | CCrc _ | CInt _ | CBool | CFloat _ | CStrNull | CStrPre _
    | CArrPre _ | CArrFixed | CArrDyn | CArrEof | CArrEnd | CRaw => true
    | _ => false
    end.
  Definition class_op_ok (op : N) : bool :=
    (negb (needs_align (classify op)) || aligns op) &&
    match classify op with
    | CEndian _ => (op =? 1) || (op =? 2)
    | c => negb (op =? 1) && negb (op =? 2) &&
      match c with
      | CAlignPad => op =? 0x23
      | CEnumCheck => op =? 0x4B
      | CSwitchTable => op =? 0x53
      | CEmit => op =? 0x65
      | CConstWrite => op =? 0x41
      | _ => true
      end
    end.
  Lemma class_op_all : forallb class_op_ok (map N.of_nat (seq 0 256)) = true.
  Proof. vm_compute. reflexivity. Qed.
  Lemma class_op op : op < 256 -> class_op_ok op = true.
  Proof.
    intros. assert (A := class_op_all). rewrite forallb_forall in A. apply A.
    apply in_map_iff. exists (N.to_nat op). split; [lia|]. apply in_seq. lia.
  Qed.

  Lemma align_rel op s : Inv s -> rel op s (align op s).
  Proof.
    intros I. inv I. unfold align. destruct (aligns op && negb (boff s =? 0)) eqn:EA; same I.
  Qed.
  Lemma align_boff op s : aligns op = true -> boff (align op s) = 0.
  Proof.
    intros A. unfold align. rewrite A. bspec; cbn; auto.
  Qed.

  Lemma exec_good op s : lenN bc < 2 ^ 62 -> op < 256 -> Inv s -> (aligns op = true -> boff s = 0) ->
    (Gs -> ~ hazard bc op s) -> good op s (exec_op lm bc op s).
  Proof.
    intros BL OP I AL NH. pose proof (class_op op OP) as CO. unfold class_op_ok in CO.
    apply andb_prop in CO. destruct CO as [CA CB].
    assert (NH1 : Gs -> ~ haz_pad bc op s) by (unfold hazard in NH; tauto).
    assert (NH2 : Gs -> ~ haz_enum bc op s) by (unfold hazard in NH; tauto).
    assert (NH3 : Gs -> ~ haz_emit op s) by (unfold hazard in NH; tauto).
    clear NH. pose proof I as I'. inv I.
    unfold exec_op. destruct (classify op) eqn:EC; cbn [needs_align negb orb] in CA;
      try (assert (B0 : boff s = 0) by auto); try (assert (op <> 1) by lia; assert (op <> 2) by lia).
    all: try (solve [cbn [all_act]; same I]).
    - fetch1. ask; cbn [all_act]; same I.
    - ask; cbn [all_act]; same I.
    - fetch1. cbn [all_act]. same I.
    - assert (op = 0x41) by lia. subst op. now apply const_write_good.
    - now apply const_check_good.
    - apply enum_check_good; auto; lia.
    - now apply range_check_good.
    - now apply crc_good.
    - unfold scale_lin. fetch1. fetch1. cbn [all_act]. same I.
    - now apply trans_poly_good.
    - now apply trans_spline_good.
    - unfold trans_int. fetch1. cbn [all_act]. same I.
    - unfold trans_int. fetch1. cbn [all_act]. same I.
    - unfold trans_int. fetch1. cbn [all_act]. same I.
    - unfold trans_int. fetch1. cbn [all_act]. same I.
    - now apply io_int_good.
    - now apply io_bool_good.
    - now apply io_float_good.
    - now apply io_bit_u_good.
    - now apply io_bit_i_good.
    - now apply io_bit_bool_good.
    - apply align_pad_good; auto; lia.
    - now apply align_fill_good.
    - bspec; cbn [all_act]; same I.
    - now apply str_null_good.
    - now apply str_pre_good.
    - apply arr_pre_good; auto. repeat split; auto; intros ->; discriminate EC.
    - apply arr_fixed_good; auto. repeat split; auto; intros ->; discriminate EC.
    - now apply arr_eof_good.
    - apply arr_dynamic_good; auto. repeat split; auto; intros ->; discriminate EC.
    - now apply arr_end_good.
    - now apply raw_bytes_good.
    - now apply switch_good.
    - apply switch_table_good; auto; lia.
    - now apply jump_if_not_good.
    - now apply jump_good.
    - now apply load_good.
    - now apply store_good.
    - fetch1. apply push_good; fields; auto.
    - apply pop_good; auto. intros v rs ES HL. cbn [all_act]. same I.
    - unfold dup_op. destruct (stk s) as [|v r] eqn:ES; [cbn [all_act]; same I; rewrite ES; auto|].
      apply push_good; auto. now rewrite ES.
    - assert (op = 0x65) by lia. apply emit_good; auto. intros G. destruct (N.eq_dec (boff s) 0); auto. exfalso. apply NH3; auto. split; auto.
    - now apply bin_good.
    - now apply un_good.
  Qed.

  (** The opcode about to be executed and the state its code starts from *)
  Definition next_op (s : st) : N := nthN bc (ip s).
  Definition entered (s : st) : st := align (next_op s) (set_ip s (ip s + 1)).
  Definition hazardous (s : st) : Prop := hazard bc (next_op s) (entered s).

  Lemma lent_len s s' rq : dlen s' = dlen s -> lent s' rq -> lent s rq.
  Proof. unfold lent. intros E. destruct (rq_pl rq); auto. now rewrite E. Qed.

  Theorem step_good s : lenN bc < 2 ^ 62 -> wf_bytes bc -> Inv s -> ip s < lenN bc -> (Gs -> ~ hazardous s) ->
    all_act RP (rel (next_op s) s) (fun _ => rel (next_op s) s) (may (next_op s) (entered s)) (lent s) (step lm bc s).
  Proof.
    intros BL WB I HI NH. unfold step. rewrite mem_eq. bspec; [|solve [ub]]. cbn [lift].
    fold (next_op s). fold (entered s).
    assert (I1 : Inv (set_ip s (ip s + 1))) by now apply Inv_ip.
    pose proof (align_rel (next_op s) _ I1) as R1. fold (entered s) in R1.
    assert (G : good (next_op s) (entered s) (exec_op lm bc (next_op s) (entered s))).
    { apply exec_good; auto.
      - now apply wf_nthN.
      - apply (e_inv _ _ _ R1).
      - intros A. now apply align_boff. }
    assert (EB : buf (entered s) = buf s /\ en (entered s) = en s).
    { unfold entered, align. destruct (_ && _); auto. }
    destruct EB as [EB EE].
    assert (PM : pos s <= pos (entered s)) by apply (e_pos _ _ _ R1).
    assert (LM : md (entered s) = md s) by apply (e_md _ _ _ R1).
    assert (LL : dlen (entered s) = dlen s) by apply (e_len _ _ _ R1).
    assert (T : forall s', rel (next_op s) (entered s) s' -> rel (next_op s) s s').
    { intros s' [A1 A2 A3 A4 A5 A6 A7]. constructor; auto; try congruence; try lia.
      - intros GQ j NE J. rewrite <- EE, <- EB. apply A5; auto; [|lia]. intros [H1 H2].
        assert (EN : entered s = set_ip s (ip s + 1)) by (unfold entered, align; now rewrite H1).
        rewrite EN in *. cbn [cur set_ip]. apply NE. split; auto.
      - intros GW D O. rewrite <- EB. apply A6; auto. congruence.
      - intros. rewrite <- EE. auto. }
    revert G. apply all_act_mono; auto. intros rq. now apply lent_len.
  Qed.
End Rel.

Lemma init_Inv Gs m data : wf_bytes data -> Inv Gs (init m data).
Proof. intros W. constructor; cbn; auto; unfold lenN; cbn; lia. Qed.
