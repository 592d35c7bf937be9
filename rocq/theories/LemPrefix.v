(** A decode that succeeds depends only on the bytes up to its end position. *)
From Verif Require Import Base SpecBytes LemBase ModelWord LemWord ModelBits LemBits ModelFloat ModelTrans ModelCrc ModelVM SpecVM
  LemAct LemSafe LemRun LemInstr LemField LemArr LemStop LemTerm.
Ltac Zify.zify_post_hook ::= Z.div_mod_to_equations.

Section Sim.
  Variables (lm : libm) (bc : list N) (C len1 len2 : N).
  Hypothesis HC : C <= len2.
  Hypothesis HL : len2 <= len1.

  Definition agree (b1 b2 : list N) : Prop :=
    wf_bytes b1 /\ wf_bytes b2 /\ lenN b1 = len1 /\ lenN b2 = len2 /\ forall i, i < C -> nthN b1 i = nthN b2 i.
  Definition same (s1 s2 : st) : Prop := exists b2, s2 = set_buf s1 b2 /\ agree (buf s1) b2.

  (** States from which the run cannot end normally at a position up to [8 * C] *)
  Definition byte_loop (b : N) : Prop :=
    b + 3 < lenN bc /\ (nthN bc b = 0x10 \/ nthN bc b = 0x14) /\ nthN bc (b + 3) = 0x38.
  Definition doom (s : st) : Prop :=
    8 * C < position s \/
    (lenN (buf s) = len1 /\ boff s = 0 /\ md s = Dec /\ exists b k rest, byte_loop b /\ loops s = (b, k) :: rest /\ 0 < k /\
      ((ip s = b /\ cur s < len1 /\ (k <> eof_mark -> C < cur s + k <= len1) /\ (k = eof_mark -> C < len1)) \/
       (ip s = b + 3 /\ (k <> eof_mark -> C < cur s + (k - 1) <= len1) /\ (k = eof_mark -> C < len1)))).

  Fixpoint doomed (a : act) : Prop :=
    match a with Cont s => doom s | Ask _ k => forall r, doomed (k r) | _ => True end.
  Inductive sim : act -> act -> Prop :=
  | sim_doom a1 a2 : doomed a1 -> sim a1 a2
  | sim_cont s1 s2 : same s1 s2 -> sim (Cont s1) (Cont s2)
  | sim_ask rq k1 k2 : (forall r, sim (k1 r) (k2 r)) -> sim (Ask rq k1) (Ask rq k2).

  Lemma sim_halt e s a : sim (Halt e s) a.
  Proof. apply sim_doom. exact I. Qed.
  Lemma sim_undef u a : sim (Undef u) a.
  Proof. apply sim_doom. exact I. Qed.
  Lemma sim_call s s' key op p h k k' : (forall r, sim (k r) (k' r)) ->
    sim (call s key op p h k) (call s' key op p h k').
  Proof. intros HK. apply sim_ask. intros r. destruct (r_ok r); [auto|apply sim_halt]. Qed.
  Lemma sim_fetch w p k k' : (forall v, sim (k v) (k' v)) -> sim (lift (fetch w bc p) k) (lift (fetch w bc p) k').
  Proof. intros HK. rewrite fetch_ok. cbn [lift]. apply HK. Qed.
  Lemma doomed_lift {A} (x : result A) k : (forall v, x = Ok v -> doomed (k v)) -> doomed (lift x k).
  Proof. destruct x; cbn; auto. Qed.
  Lemma doomed_call s key op p h k : (forall r, doomed (k r)) -> doomed (call s key op p h k).
  Proof. intros HK r. destruct (r_ok r); cbn; auto. Qed.
  Lemma past s : C < cur s -> doom s.
  Proof. intros. left. unfold position. lia. Qed.

  (** ** Buffer accesses *)
  Lemma word_same w e b1 b2 p : agree b1 b2 -> p + wbytes w <= C -> read_word w e b1 p = read_word w e b2 p.
  Proof.
    intros (W1 & W2 & L1 & L2 & A) HP. rewrite !read_word_eq by auto.
    destruct (N.leb_spec (p + wbytes w) (lenN b1)); [|lia]. destruct (N.leb_spec (p + wbytes w) (lenN b2)); [|lia].
    f_equal. f_equal. apply sub_ext; try lia. intros. apply A. lia.
  Qed.
  Lemma slice_same b1 b2 p n : agree b1 b2 -> p + n <= C -> slice UData b1 p n = slice UData b2 p n.
  Proof.
    intros (W1 & W2 & L1 & L2 & A) HP. rewrite !slice_eq.
    destruct (N.leb_spec (p + n) (lenN b1)); [|lia]. destruct (N.leb_spec (p + n) (lenN b2)); [|lia].
    f_equal. apply sub_ext; try lia. intros. apply A. lia.
  Qed.
  Lemma put_agree b1 b2 p d : agree b1 b2 -> wf_bytes d -> p + lenN d <= len2 -> agree (put b1 p d) (put b2 p d).
  Proof.
    intros (W1 & W2 & L1 & L2 & A) WD HP. unfold agree.
    rewrite !lenN_put by lia. split; [apply wf_put; auto; lia|]. split; [apply wf_put; auto; lia|].
    split; [auto|]. split; [auto|]. intros i Hi. rewrite !nthN_put by lia. destruct (_ && _); auto.
  Qed.
  Lemma written_len n d : lenN (firstn (N.to_nat n) (map (fun x => x mod 256) d)) <= n.
  Proof. unfold lenN. rewrite firstn_length. lia. Qed.
  Lemma written_wf n d : wf_bytes (firstn (N.to_nat n) (map (fun x => x mod 256) d)).
  Proof.
    apply Forall_forall. intros x HX.
    assert (HI : In x (map (fun x => x mod 256) d)).
    { clear - HX. revert HX. generalize (map (fun x => x mod 256) d) as l. generalize (N.to_nat n) as k.
      induction k; intros [|y l]; cbn; try tauto. intros [->|HX]; auto. }
    apply in_map_iff in HI. destruct HI as (y & <- & _). lia.
  Qed.
  Lemma host_write_sim b1 b2 p n d k k' : agree b1 b2 -> p + n <= C ->
    (forall b1' b2', agree b1' b2' -> sim (k b1') (k' b2')) ->
    sim (lift (host_write b1 p n d) k) (lift (host_write b2 p n d) k').
  Proof.
    intros A HP HK. unfold host_write. rewrite !splice_eq.
    pose proof (written_len n d) as WL. pose proof (written_wf n d) as WW.
    set (x := firstn _ _) in *. destruct A as (A1 & A2 & A3 & A4 & A5).
    destruct (N.leb_spec (p + lenN x) (lenN b1)); [|lia]. destruct (N.leb_spec (p + lenN x) (lenN b2)); [|lia].
    cbn [lift]. apply HK. apply put_agree; [repeat split; auto|auto|lia].
  Qed.
  Lemma write_word_sim w e b1 b2 p v k k' : agree b1 b2 -> p + wbytes w <= C ->
    (forall b1' b2', agree b1' b2' -> sim (k b1') (k' b2')) ->
    sim (lift (write_word w e b1 p v) k) (lift (write_word w e b2 p v) k').
  Proof.
    intros A HP HK. rewrite !write_word_eq. destruct A as (A1 & A2 & A3 & A4 & A5).
    destruct (N.leb_spec (p + wbytes w) (lenN b1)); [|lia]. destruct (N.leb_spec (p + wbytes w) (lenN b2)); [|lia].
    cbn [lift]. apply HK. apply put_agree; [repeat split; auto|apply wf_bytes_of|].
    rewrite lenN_bytes_of, <- wbytes_nat. lia.
  Qed.

  Lemma read_loop_same e b1 b2 n : agree b1 b2 -> forall i v c o, o < 8 -> 8 * c + o + N.of_nat n <= 8 * C ->
    read_bits_loop e b1 n i v c o = read_bits_loop e b2 n i v c o.
  Proof.
    intros (A1 & A2 & A3 & A4 & A5). induction n; intros i v c o HO HP; [reflexivity|]. cbn [read_bits_loop].
    destruct (N.leb_spec (lenN b1) c); [lia|]. destruct (N.leb_spec (lenN b2) c); [lia|].
    rewrite !mem_eq. destruct (N.ltb_spec c (lenN b1)); [|lia]. destruct (N.ltb_spec c (lenN b2)); [|lia].
    cbn [bindR]. rewrite (A5 c) by lia.
    assert (HR : forall v', (let '(cur', boff') := bit_advance c o in read_bits_loop e b1 n (i + 1) v' cur' boff') =
                            (let '(cur', boff') := bit_advance c o in read_bits_loop e b2 n (i + 1) v' cur' boff')).
    { intros v'. unfold bit_advance. cbv zeta. destruct (8 <=? o + 1) eqn:E; apply IHn; lia. }
    destruct e; cbn [bindR].
    - destruct (_ =? 0); cbn [bindR]; [apply HR|]. destruct (64 <=? i); cbn [bindR]; [reflexivity|apply HR].
    - apply HR.
  Qed.
  Lemma bits_same e b1 b2 c o n : agree b1 b2 -> o < 8 -> 8 * c + o + n <= 8 * C ->
    read_bits e b1 c o n = read_bits e b2 c o n.
  Proof.
    intros A HO HP. unfold read_bits.
    assert (EF : fast_path b1 c o n = fast_path b2 c o n).
    { unfold fast_path. destruct A as (_ & _ & A3 & A4 & _).
      destruct (N.eqb_spec o 0); cbn [andb]; [|reflexivity]. destruct (N.land n 7 =? 0); [|reflexivity]. cbv zeta.
      destruct (N.leb_spec (c + n / 8) (lenN b1)); [|lia]. destruct (N.leb_spec (c + n / 8) (lenN b2)); [reflexivity|lia]. }
    rewrite <- EF. destruct (fast_path b1 c o n) as [w|] eqn:F.
    - apply fast_path_Some in F. destruct F as (-> & -> & F). rewrite (word_same w e b1 b2 c A) by lia. reflexivity.
    - apply read_loop_same; auto. lia.
  Qed.
  (** ** Lists of instructions that do not look at the buffer *)
  Ltac rs := cbn [md buf ip cur boff en tr opt loops stk set_buf set_ip set_cur set_boff set_en set_tr set_opt set_loops set_stk] in *.
  Ltac same_ := apply sim_cont; eexists; split; [reflexivity|cbn [buf]; assumption].
  Ltac sm1 :=
    match goal with
    | |- sim (Halt _ _) _ => apply sim_halt
    | |- sim (Undef _) _ => apply sim_undef
    | |- sim (lift (fetch _ _ _) _) (lift (fetch _ _ _) _) => apply sim_fetch; intros [? ?]
    | |- sim (lift ?x _) (lift ?x _) => destruct x eqn:?; cbn [lift]
    | |- sim (call _ _ _ _ _ _) (call _ _ _ _ _ _) => apply sim_call; intros ?
    | |- sim (if ?x then _ else _) (if ?x then _ else _) => destruct x eqn:?
    | |- sim (match ?x with _ => _ end) (match ?x with _ => _ end) => destruct x eqn:?
    | |- sim (Cont _) (Cont _) => same_
    end.
  Ltac sm := repeat (cbv beta zeta; rs; sm1).

  Ltac dm1 :=
    match goal with
    | |- doomed (Halt _ _) => exact I
    | |- doomed (Undef _) => exact I
    | |- doomed (lift _ _) => apply doomed_lift; intros ? ?
    | |- doomed (call _ _ _ _ _ _) => apply doomed_call; intros ?
    | |- doomed (Ask _ _) => intros ?
    | |- doomed (if ?x then _ else _) => destruct x eqn:?
    | |- doomed (match ?x with _ => _ end) => destruct x eqn:?
    end.
  Ltac dm := repeat (cbv beta zeta; rs; dm1).

  Section Ops.
  Variables (b1 b2 : list N) (i c o : N) (e : endian) (t : trans) (p : bool) (l : list (N * N)) (k : list N).
  Let s1 := mkst Dec b1 i c o e t p l k.
  Let s2 := mkst Dec b2 i c o e t p l k.
  Hypothesis AG : agree b1 b2.
  Hypothesis HO : o < 8.

  Lemma len_1 : lenN b1 = len1. Proof. apply AG. Qed.
  Lemma len_2 : lenN b2 = len2. Proof. apply AG. Qed.
  Lemma all_same : C = len1 -> b1 = b2.
  Proof. destruct AG as (A1 & A2 & A3 & A4 & A5). intros E. apply nthN_ext; [lia|]. intros j HJ. apply A5. lia. Qed.

  Lemma io_scalar_sim op w ew eop tw fw : sim (io_scalar bc s1 op w ew eop tw fw) (io_scalar bc s2 op w ew eop tw fw).
  Proof.
    unfold io_scalar, s1, s2, dlen. apply sim_fetch; intros [key q]. rs. rewrite len_1, len_2.
    destruct (N.ltb_spec len1 (c + wbytes w)) as [H1|H1]; destruct (N.ltb_spec len2 (c + wbytes w)) as [H2|H2]; try lia.
    - sm.
    - apply sim_doom. dm. cbn [doomed]. apply past. cbn. lia.
    - destruct (N.le_gt_cases (c + wbytes w) C) as [HP|HP].
      + rewrite (word_same w e b1 b2 c AG HP). sm.
      + apply sim_doom. dm. cbn [doomed]. apply past. cbn. lia.
  Qed.
  Lemma io_bool_sim : sim (io_bool bc s1) (io_bool bc s2).
  Proof.
    unfold io_bool, s1, s2, dlen. apply sim_fetch; intros [key q]. rs. rewrite len_1, len_2.
    destruct (N.ltb_spec len1 (c + 1)) as [H1|H1]; destruct (N.ltb_spec len2 (c + 1)) as [H2|H2]; try lia.
    - sm.
    - apply sim_doom. dm. cbn [doomed]. apply past. cbn. lia.
    - destruct (N.le_gt_cases (c + 1) C) as [HP|HP].
      + pose proof (word_same W1 e b1 b2 c AG HP) as HR. cbn [read_word] in HR. rewrite HR. sm.
      + apply sim_doom. dm. cbn [doomed]. apply past. cbn. lia.
  Qed.

  Lemma get_bits_sim j n k1 k2 :
    (forall v c' o', o' < 8 -> sim (k1 v (mkst Dec b1 j c' o' e t p l k)) (k2 v (mkst Dec b2 j c' o' e t p l k))) ->
    (forall v c' o', 8 * C < 8 * c' + o' -> doomed (k1 v (mkst Dec b1 j c' o' e t p l k))) ->
    sim (get_bits (mkst Dec b1 j c o e t p l k) n k1) (get_bits (mkst Dec b2 j c o e t p l k) n k2).
  Proof.
    intros HK HD. unfold get_bits. rs.
    assert (HB : forall v c' o', read_bits e b1 c o n = Ok (v, c', o') -> o' < 8 /\ 8 * c' + o' = 8 * c + o + N.min n (8 * len1 - (8 * c + o))).
    { intros v c' o' R. pose proof (read_bits_spec e b1 c o n (proj1 AG) HO) as S. cbv zeta in S. rewrite R in S.
      destruct S as (S1 & S2 & _). rewrite len_1 in S2. auto. }
    destruct (N.le_gt_cases (8 * c + o + n) (8 * C)) as [HP|HP]; [|destruct (N.eq_dec C len1) as [HE|HE]].
    - rewrite (bits_same e b1 b2 c o n AG HO HP). rewrite (bits_same e b1 b2 c o n AG HO HP) in HB.
      destruct (read_bits e b2 c o n) as [[[v c'] o']|u]; [|apply sim_undef]. cbn [lift]. apply HK. now destruct (HB _ _ _ eq_refl).
    - rewrite <- (all_same HE). destruct (read_bits e b1 c o n) as [[[v c'] o']|u]; [|apply sim_undef]. cbn [lift].
      rewrite (all_same HE) at 2. apply HK. now destruct (HB _ _ _ eq_refl).
    - apply sim_doom. apply doomed_lift. intros [[v c'] o'] R. destruct (HB _ _ _ R) as [B1 B2]. apply HD. rs. clear - B2 HP HE HC HL. lia.
  Qed.
  Lemma bit_u_sim : sim (io_bit_u bc s1) (io_bit_u bc s2).
  Proof.
    unfold io_bit_u, s1, s2. apply sim_fetch; intros [key q]. apply sim_fetch; intros [n q']. cbv zeta. rs.
    apply get_bits_sim; intros; [sm|dm]. cbn [doomed]. now left.
  Qed.
  Lemma bit_i_sim : sim (io_bit_i bc s1) (io_bit_i bc s2).
  Proof.
    unfold io_bit_i, s1, s2. apply sim_fetch; intros [key q]. apply sim_fetch; intros [n q']. cbv zeta. rs.
    apply get_bits_sim; intros; [sm|dm]. cbn [doomed]. now left.
  Qed.
  Lemma bit_bool_sim : sim (io_bit_bool bc s1) (io_bit_bool bc s2).
  Proof.
    unfold io_bit_bool, s1, s2. apply sim_fetch; intros [key q]. cbv zeta. rs.
    apply get_bits_sim; intros; [sm|dm]. cbn [doomed]. now left.
  Qed.
  Lemma fill_sim : sim (align_fill bc s1) (align_fill bc s2).
  Proof.
    unfold align_fill, s1, s2. apply sim_fetch; intros [f q]. cbv zeta. rs.
    destruct (0 <? o); [|sm]. apply get_bits_sim; intros; [sm|dm]. cbn [doomed]. now left.
  Qed.
  Lemma pad_sim : sim (align_pad bc s1) (align_pad bc s2).
  Proof. unfold align_pad, s1, s2. sm. Qed.

  Lemma find_nul_bound n : forall b q acc r, find_nul b q n acc = Ok r -> acc <= r <= acc + N.of_nat n.
  Proof.
    induction n; intros b q acc r; cbn [find_nul]; [inversion 1; lia|].
    destruct (mem UData b q) as [x|u]; cbn [bindR]; [|discriminate].
    destruct (x =? 0); [inversion 1; lia|]. intros X. specialize (IHn _ _ _ _ X). lia.
  Qed.
  (** A scan that stops at or before [C] finds the same thing in both buffers; [n1], [n2] are the limits *)
  Lemma find_nul_same n1 : forall n2 q acc r, find_nul b1 q n1 acc = Ok r -> q + (r - acc) < C ->
    (n2 <= n1)%nat -> (n2 = n1 \/ q + N.of_nat n2 >= C) -> find_nul b2 q n2 acc = Ok r.
  Proof.
    destruct AG as (A1 & A2 & A3 & A4 & A5).
    induction n1; intros n2 q acc r; cbn [find_nul].
    - inversion 1; subst. intros. assert (n2 = 0%nat) by lia. subst. reflexivity.
    - rewrite mem_eq. destruct (N.ltb_spec q (lenN b1)); cbn [bindR]; [|discriminate].
      intros X HP HN HD. destruct n2 as [|n2].
      { pose proof (fun Y => find_nul_bound (S n1) b1 q acc r Y) as FB. cbn [find_nul] in FB. rewrite mem_eq in FB.
        destruct (N.ltb_spec q (lenN b1)); cbn [bindR] in FB; [|lia]. specialize (FB X). lia. }
      cbn [find_nul]. rewrite mem_eq. destruct (N.ltb_spec q (lenN b2)); cbn [bindR]; [|lia]. rewrite <- (A5 q) by lia.
      destruct (nthN b1 q =? 0); [exact X|].
      pose proof (find_nul_bound _ _ _ _ _ X). apply IHn1; auto; lia.
  Qed.
  Lemma str_null_sim : sim (str_null bc s1) (str_null bc s2).
  Proof.
    unfold str_null, s1, s2, dlen. apply sim_fetch; intros [key q]. apply sim_fetch; intros [mx q']. cbv zeta. rs.
    rewrite len_1, len_2.
    destruct (N.le_gt_cases C c) as [HP|HP].
    { apply sim_doom. dm. cbn [doomed]. apply past. cbn. lia. }
    destruct (N.leb_spec c len1); [|lia]. destruct (N.leb_spec c len2); [|lia].
    set (n1 := if len1 - c <? mx then len1 - c else mx). set (n2 := if len2 - c <? mx then len2 - c else mx).
    destruct (find_nul b1 c (N.to_nat n1) 0) as [len|u] eqn:EF; cbn [lift]; [|apply sim_undef].
    destruct (N.leb_spec len1 (c + len)); [apply sim_halt|].
    destruct (N.le_gt_cases (c + len + 1) C) as [HQ|HQ].
    - rewrite (find_nul_same (N.to_nat n1) (N.to_nat n2) c 0 len EF); [|lia| |].
      2,3: unfold n1, n2; destruct (N.ltb_spec (len1 - c) mx); destruct (N.ltb_spec (len2 - c) mx); lia.
      cbn [lift]. destruct (N.leb_spec len2 (c + len)); [lia|].
      rewrite (slice_same b1 b2 c len AG) by lia. destruct (slice UData b2 c len); cbn [lift]; [|apply sim_undef].
      apply sim_call. intros r. apply host_write_sim; [exact AG|lia|]. intros b1' b2' AG'. sm.
    - apply sim_doom. dm. cbn [doomed]. apply past. cbn. lia.
  Qed.
  Lemma str_pre_sim op w : sim (str_pre bc s1 op w) (str_pre bc s2 op w).
  Proof.
    unfold str_pre, s1, s2, dlen. apply sim_fetch; intros [key q]. cbv zeta. rs. rewrite len_1, len_2.
    destruct (N.ltb_spec len1 (c + wbytes w)) as [H1|H1]; [apply sim_halt|].
    destruct (N.le_gt_cases (c + wbytes w) C) as [HP|HP].
    - destruct (N.ltb_spec len2 (c + wbytes w)) as [H2|H2]; [lia|].
      rewrite (word_same w e b1 b2 c AG HP). destruct (read_word w e b2 c) as [len|u]; cbn [lift]; [|apply sim_undef].
      destruct (N.ltb_spec len1 (c + wbytes w + len)) as [H3|H3]; [apply sim_halt|].
      destruct (N.le_gt_cases (c + wbytes w + len) C) as [HQ|HQ].
      + destruct (N.ltb_spec len2 (c + wbytes w + len)) as [H4|H4]; [lia|].
        rewrite (slice_same b1 b2 (c + wbytes w) len AG) by lia. destruct (slice UData b2 _ len); cbn [lift]; [|apply sim_undef].
        apply sim_call. intros r. apply host_write_sim; [exact AG|lia|]. intros b1' b2' AG'. sm.
      + apply sim_doom. dm. cbn [doomed]. apply past. cbn. lia.
    - apply sim_doom. dm. cbn [doomed]. apply past. cbn. lia.
  Qed.

  (** ** Arrays *)
  Lemma loop_push_sim j c' n b1' b2' : agree b1' b2' ->
    sim (loop_push (mkst Dec b1' j c' o e t p l k) n) (loop_push (mkst Dec b2' j c' o e t p l k) n).
  Proof. intros AG'. unfold loop_push. sm. Qed.
  Lemma byte_loop_pushed j c' n b1' : o = 0 -> lenN b1' = len1 -> byte_loop j -> 0 < n -> C < c' + n <= len1 ->
    doomed (loop_push (mkst Dec b1' j c' o e t p l k) n).
  Proof.
    intros HZ HB HJ HN HR. unfold loop_push. dm. cbn [doomed]. right. rs.
    split; [auto|]. split; [auto|]. split; [auto|].
    unfold arr_push in *. destruct (_ <? _); [|discriminate].
    match goal with X : Ok _ = Ok _ |- _ => inversion X; subst end.
    exists j, n, l. split; [auto|]. split; [auto|]. split; [auto|]. left. split; [auto|]. split; [lia|]. split; [auto|lia].
  Qed.
  Lemma enter_sim j c' n : o = 0 -> c' <= C \/ C < c' ->
    sim (enter_array bc (mkst Dec b1 j c' o e t p l k) n) (enter_array bc (mkst Dec b2 j c' o e t p l k) n).
  Proof.
    intros HZ _. unfold enter_array. destruct (N.ltb_spec 0 n); [|sm].
    pose proof (loop_push_sim j c' n b1 b2 AG) as HP. unfold try_bulk. rs.
    destruct (n =? 0); [exact HP|]. destruct (N.leb_spec (lenN bc) (j + 3)); [exact HP|].
    rewrite !mem_eq. destruct (N.ltb_spec j (lenN bc)); [|lia]. destruct (N.ltb_spec (j + 3) (lenN bc)); [|lia]. cbn [lift].
    destruct (((nthN bc j =? 0x10) || (nthN bc j =? 0x14)) && (nthN bc (j + 3) =? 0x38)) eqn:EB; [|exact HP].
    destruct (j + 1 <? lenN bc); cbn [lift]; [|apply sim_undef]. destruct (j + 2 <? lenN bc); cbn [lift]; [|apply sim_undef].
    cbv zeta. unfold dlen. rs. rewrite len_1, len_2.
    assert (BL : byte_loop j) by (split; [lia|]; split; lia).
    destruct (N.ltb_spec len1 (c' + n)) as [H3|H3]; destruct (N.ltb_spec len2 (c' + n)) as [H4|H4]; try lia.
    - exact HP.
    - apply sim_doom. apply doomed_lift. intros d _. intros r. apply doomed_lift. intros b1' HW.
      assert (L' : lenN b1' = len1).
      { unfold host_write in HW. rewrite splice_eq in HW. destruct (N.leb_spec (c' + lenN (firstn (N.to_nat n) (map (fun x => x mod 256) (r_bytes r)))) (lenN b1)); inversion HW; subst. rewrite lenN_put by auto. apply AG. }
      destruct (r_ok r); [cbn [doomed]; apply past; cbn; lia|]. apply byte_loop_pushed; auto; cbn [cur]; lia.
    - destruct (N.le_gt_cases (c' + n) C) as [HQ|HQ].
      + rewrite (slice_same b1 b2 c' n AG HQ). destruct (slice UData b2 c' n); cbn [lift]; [|apply sim_undef].
        apply sim_ask. intros r. apply host_write_sim; [exact AG|exact HQ|]. intros b1' b2' AG'. cbv zeta. rs.
        destruct (r_ok r); [sm|]. now apply loop_push_sim.
      + apply sim_doom. apply doomed_lift. intros d _. intros r. apply doomed_lift. intros b1' HW.
        assert (L' : lenN b1' = len1).
        { unfold host_write in HW. rewrite splice_eq in HW. destruct (N.leb_spec (c' + lenN (firstn (N.to_nat n) (map (fun x => x mod 256) (r_bytes r)))) (lenN b1)); inversion HW; subst. rewrite lenN_put by auto. apply AG. }
        destruct (r_ok r); [cbn [doomed]; apply past; cbn; lia|]. apply byte_loop_pushed; auto; cbn [cur]; lia.
  Qed.
  Lemma arr_pre_sim op w : o = 0 -> sim (arr_pre bc s1 op w) (arr_pre bc s2 op w).
  Proof.
    intros HZ. unfold arr_pre, s1, s2, dlen. apply sim_fetch; intros [key q]. cbv zeta. rs. rewrite len_1, len_2.
    destruct (N.ltb_spec len1 (c + wbytes w)) as [H1|H1]; [apply sim_halt|].
    destruct (N.le_gt_cases (c + wbytes w) C) as [HP|HP].
    - destruct (N.ltb_spec len2 (c + wbytes w)) as [H2|H2]; [lia|].
      rewrite (word_same w e b1 b2 c AG HP). destruct (read_word w e b2 c) as [len|u]; cbn [lift]; [|apply sim_undef].
      apply sim_call. intros r. apply enter_sim; [auto|lia].
    - apply sim_doom. apply doomed_lift. intros v _. apply doomed_call. intros r.
      unfold enter_array, try_bulk, loop_push. dm. all: cbn [doomed]; apply past; cbn; lia.
  Qed.
  Lemma arr_fixed_sim : o = 0 -> sim (arr_fixed bc s1) (arr_fixed bc s2).
  Proof.
    intros HZ. unfold arr_fixed, s1, s2. apply sim_fetch; intros [key q]. apply sim_fetch; intros [n q']. cbv zeta. rs.
    apply sim_call. intros r. apply enter_sim; [auto|lia].
  Qed.
  Lemma arr_dyn_sim : o = 0 -> sim (arr_dynamic bc s1) (arr_dynamic bc s2).
  Proof.
    intros HZ. unfold arr_dynamic, s1, s2. apply sim_fetch; intros [key q]. apply sim_fetch; intros [n q']. cbv zeta. rs.
    apply sim_call. intros r. destruct (_ <? _); [apply sim_halt|]. apply sim_call. intros r'. apply enter_sim; [auto|lia].
  Qed.
  Lemma arr_eof_sim : len1 = len2 -> sim (arr_eof bc s1) (arr_eof bc s2).
  Proof.
    intros HE. unfold arr_eof, s1, s2, dlen. apply sim_fetch; intros [key q]. rs. destruct (_ <=? _); [apply sim_halt|].
    destruct (arr_push _ _ _); cbn [lift]; [|apply sim_undef]. rs. rewrite len_1, len_2, HE. sm.
  Qed.
  Lemma arr_end_sim : len1 = len2 \/ Forall (fun f => snd f <> eof_mark) l -> sim (arr_end s1) (arr_end s2).
  Proof.
    intros HE. unfold arr_end, s1, s2, dlen. rs. destruct l as [|[b n] rest]; [apply sim_halt|].
    destruct (N.eqb_spec n eof_mark) as [HM|HM].
    - destruct HE as [HE|HE]; [|inversion HE; subst; now elim H1].
      rewrite len_1, len_2, HE. sm.
    - sm.
  Qed.
  Lemma raw_sim : sim (raw_bytes bc s1) (raw_bytes bc s2).
  Proof.
    unfold raw_bytes, s1, s2, dlen. apply sim_fetch; intros [key q]. apply sim_fetch; intros [n q']. cbv zeta. rs.
    rewrite len_1, len_2. destruct (N.ltb_spec len1 (c + n)) as [H1|H1]; [apply sim_halt|].
    destruct (N.le_gt_cases (c + n) C) as [HP|HP].
    - destruct (N.ltb_spec len2 (c + n)) as [H2|H2]; [lia|].
      rewrite (slice_same b1 b2 c n AG HP). destruct (slice UData b2 c n); cbn [lift]; [|apply sim_undef].
      apply sim_ask. intros r. apply host_write_sim; [exact AG|exact HP|]. intros b1' b2' AG'. sm.
    - apply sim_doom. apply doomed_lift. intros d _. intros r. dm. cbn [doomed]. apply past. cbn. lia.
  Qed.

  (** ** Checks *)
  Lemma const_write_sim : sim (const_write bc s1) (const_write bc s2).
  Proof.
    unfold const_write, s1, s2, dlen. apply sim_fetch; intros [ty q]. rs.
    destruct (int_type ty) as [[w [|]]|]; [apply sim_halt| |apply sim_halt].
    apply sim_fetch; intros [v q']. cbv zeta. rs. rewrite len_1, len_2.
    destruct (N.ltb_spec len1 (c + wbytes w)) as [H1|H1]; [apply sim_halt|].
    destruct (N.le_gt_cases (c + wbytes w) C) as [HP|HP].
    - destruct (N.ltb_spec len2 (c + wbytes w)) as [H2|H2]; [lia|].
      apply write_word_sim; [exact AG|exact HP|]. intros b1' b2' AG'. sm.
    - apply sim_doom. dm. cbn [doomed]. apply past. cbn. lia.
  Qed.
  Lemma const_check_sim : sim (const_check bc s1) (const_check bc s2).
  Proof.
    unfold const_check, s1, s2, dlen. apply sim_fetch; intros [key q]. apply sim_fetch; intros [ty q']. rs.
    destruct (int_type ty) as [[w sg]|]; [|apply sim_halt].
    apply sim_fetch; intros [v q'']. cbv zeta. rs. rewrite len_1, len_2.
    destruct (N.ltb_spec len1 (c + wbytes w)) as [H1|H1]; [apply sim_halt|].
    destruct (N.le_gt_cases (c + wbytes w) C) as [HP|HP].
    - destruct (N.ltb_spec len2 (c + wbytes w)) as [H2|H2]; [lia|].
      rewrite (word_same w e b1 b2 c AG HP). sm.
    - apply sim_doom. dm. cbn [doomed]. apply past. cbn. lia.
  Qed.
  (** When the position is already past [C] nothing needs to be compared *)
  Lemma enum_sim : sim (enum_check bc s1) (enum_check bc s2).
  Proof.
    unfold enum_check, s1, s2, read_back. apply sim_fetch; intros [ty q]. apply sim_fetch; intros [n q']. rs.
    destruct (int_type ty) as [[w sg]|]; [|apply sim_halt].
    destruct (N.ltb_spec c (wbytes w)) as [H1|H1]; [apply sim_undef|].
    destruct (N.le_gt_cases c C) as [HP|HP].
    - rewrite (word_same w e b1 b2 (c - wbytes w) AG) by lia. sm.
    - apply sim_doom. dm. cbn [doomed]. apply past. cbn. lia.
  Qed.
  Lemma range_sim : sim (range_check bc s1) (range_check bc s2).
  Proof.
    unfold range_check, s1, s2. apply sim_fetch; intros [ty q]. cbv zeta. rs.
    assert (HG : forall w (lt : N -> N -> bool), sim
      (let* (mn, p0) := fetch w bc q in let* (mx, p1) := fetch w bc p0 in
       if c <? wbytes w then Halt EOob (mkst Dec b1 p1 c o e t p l k)
       else let* v := read_word w e b1 (c - wbytes w) in
            if lt v mn || lt mx v then Halt EValidation (mkst Dec b1 p1 c o e t p l k) else Cont (mkst Dec b1 p1 c o e t p l k))
      (let* (mn, p0) := fetch w bc q in let* (mx, p1) := fetch w bc p0 in
       if c <? wbytes w then Halt EOob (mkst Dec b2 p1 c o e t p l k)
       else let* v := read_word w e b2 (c - wbytes w) in
            if lt v mn || lt mx v then Halt EValidation (mkst Dec b2 p1 c o e t p l k) else Cont (mkst Dec b2 p1 c o e t p l k))).
    { intros w lt. apply sim_fetch; intros [mn q1]. apply sim_fetch; intros [mx q2].
      destruct (N.ltb_spec c (wbytes w)) as [H1|H1]; [apply sim_halt|].
      destruct (N.le_gt_cases c C) as [HP|HP].
      - rewrite (word_same w e b1 b2 (c - wbytes w) AG) by lia. sm.
      - apply sim_doom. dm. cbn [doomed]. apply past. cbn. lia. }
    destruct (int_type ty) as [it|]; [apply HG|].
    destruct (ty =? 0x18); [apply HG|]. destruct (ty =? 0x19); [apply HG|apply sim_halt].
  Qed.
  Lemma crc_sim w32 : sim (crc_op bc s1 w32) (crc_op bc s2 w32).
  Proof.
    unfold crc_op, s1, s2, dlen. apply sim_fetch; intros [po q1]. apply sim_fetch; intros [ini q2].
    apply sim_fetch; intros [xo q3]. apply sim_fetch; intros [fl q4]. cbv zeta. rs.
    destruct (N.le_gt_cases (c + wbytes (if w32 then W4 else W2)) C) as [HP|HP].
    - rewrite (slice_same b1 b2 0 c AG) by lia. destruct (slice UData b2 0 c); cbn [lift]; [|apply sim_undef].
      rewrite len_1, len_2. destruct (N.ltb_spec len1 (c + wbytes (if w32 then W4 else W2))); [lia|].
      destruct (N.ltb_spec len2 (c + wbytes (if w32 then W4 else W2))); [lia|].
      rewrite (word_same _ e b1 b2 c AG HP). sm.
    - apply sim_doom. dm. cbn [doomed]. apply past. cbn. lia.
  Qed.
  Lemma emit_sim : sim (emit bc s1) (emit bc s2).
  Proof.
    unfold emit, s1, s2, pop, dlen. apply sim_fetch; intros [ty q]. cbv zeta. rs. destruct k as [|v k']; [apply sim_halt|].
    rs. destruct (emit_width ty) as [w|]; [|apply sim_halt]. rewrite len_1, len_2.
    destruct (N.ltb_spec len1 (c + wbytes w)) as [H1|H1]; [apply sim_halt|].
    destruct (N.le_gt_cases (c + wbytes w) C) as [HP|HP].
    - destruct (N.ltb_spec len2 (c + wbytes w)) as [H2|H2]; [lia|].
      rewrite (word_same w e b1 b2 c AG HP). sm.
    - apply sim_doom. dm. cbn [doomed]. apply past. cbn. lia.
  Qed.

  Lemma exec_sim op : (aligns op = true -> o = 0) ->
    len1 = len2 \/ (op <> 0x3A /\ Forall (fun f => snd f <> eof_mark) l) ->
    sim (exec_op lm bc op s1) (exec_op lm bc op s2).
  Proof.
    intros HA HE. unfold exec_op.
    assert (HR : match classify op with CArrPre _ | CArrFixed | CArrDyn => aligns op = true | CArrEof => op = 0x3A | _ => True end).
    { pose proof (classify_inv op) as CI. destruct (classify op) eqn:EC; auto.
      - unfold aligns. lia.
      - subst op. reflexivity.
      - clear - EC. assert (D : op < 256 \/ 256 <= op) by lia. destruct D as [D|D].
        + assert (A : forallb (fun op => match classify op with CArrEof => op =? 0x3A | _ => true end) (map N.of_nat (seq 0 256)) = true) by (vm_compute; reflexivity).
          rewrite forallb_forall in A. specialize (A op). rewrite EC in A. apply N.eqb_eq. apply A.
          apply in_map_iff. exists (N.to_nat op). split; [lia|]. apply in_seq. lia.
        + exfalso. destruct op as [|q]; [lia|]. do 8 (destruct q as [q|q|]; try lia; try discriminate EC).
      - subst op. reflexivity. }
    destruct (classify op) eqn:EC.
    all: try (unfold s1, s2, scale_lin, trans_poly, trans_spline, trans_int, load_ctx, store_ctx, dup_op, push, pop, jump_op, jump_to; sm; fail).
    - apply const_write_sim.
    - apply const_check_sim.
    - apply enum_sim.
    - apply range_sim.
    - apply crc_sim.
    - unfold io_int. apply io_scalar_sim.
    - apply io_bool_sim.
    - unfold io_float. apply io_scalar_sim.
    - apply bit_u_sim.
    - apply bit_i_sim.
    - apply bit_bool_sim.
    - apply pad_sim.
    - apply fill_sim.
    - apply str_null_sim.
    - apply str_pre_sim.
    - apply arr_pre_sim. auto.
    - apply arr_fixed_sim. auto.
    - apply arr_eof_sim. destruct HE as [|[]]; congruence.
    - apply arr_dyn_sim. auto.
    - apply arr_end_sim. destruct HE as [|[]]; auto.
    - apply raw_sim.
    - unfold s1, s2, switch_op, jump_to. sm.
    - unfold s1, s2, switch_table, jump_to. sm.
    - unfold s1, s2, jump_if_not, pop, jump_to. sm.
    - apply emit_sim.
    - unfold s1, s2, bin_op, pop, push. sm.
    - unfold s1, s2, un_op, pop, push. sm.
  Qed.
  End Ops.

  (** ** One step *)
  Lemma step_sim s1 s2 : same s1 s2 -> md s1 = Dec -> boff s1 < 8 ->
    len1 = len2 \/ (opcode_at bc s1 <> 0x3A /\ Forall (fun f => snd f <> eof_mark) (loops s1)) ->
    sim (step lm bc s1) (step lm bc s2).
  Proof.
    intros (b2 & -> & AG) HM HB HE. destruct s1 as [m b1 i c o e t p l k]. rs. subst m.
    unfold step. rs. rewrite mem_eq. destruct (N.ltb_spec i (lenN bc)); cbn [lift]; [|apply sim_undef].
    unfold opcode_at in HE. rs.
    destruct (aligns (nthN bc i)) eqn:EA.
    - rewrite !align_eq by (auto; rs; auto). unfold byte_pos, position. rs. apply exec_sim; auto. lia.
    - rewrite !align_no by auto. apply exec_sim; auto. congruence.
  Qed.

  Lemma doom_step s : ip s < lenN bc -> boff s < 8 ->
    (lenN (buf s) = len1 /\ boff s = 0 /\ md s = Dec /\ exists b k rest, byte_loop b /\ loops s = (b, k) :: rest /\ 0 < k /\
      ((ip s = b /\ cur s < len1 /\ (k <> eof_mark -> C < cur s + k <= len1) /\ (k = eof_mark -> C < len1)) \/
       (ip s = b + 3 /\ (k <> eof_mark -> C < cur s + (k - 1) <= len1) /\ (k = eof_mark -> C < len1)))) ->
    conts doom (step lm bc s).
  Proof.
    destruct s as [m bf i c o e t p l k]. rs.
    intros HI HB (HL1 & -> & -> & b & n & rest & BL & -> & HN & HD). destruct BL as (BL1 & BL2 & BL3).
    unfold step. rs. rewrite mem_eq. destruct (N.ltb_spec i (lenN bc)); cbn [lift]; [|exact I].
    destruct HD as [(HI' & HC' & HK1 & HK2)|(HI' & HK1 & HK2)]; subst i.
    - assert (EA : aligns (nthN bc b) = true) by (destruct BL2 as [->| ->]; reflexivity).
      rewrite align_eq by (auto; rs; auto). unfold byte_pos, position. rs. replace ((8 * c + 0 + 7) / 8) with c by lia.
      assert (EX : forall ty op, i_w ty = W1 -> conts doom (io_int bc (mkst Dec bf (b + 1) c 0 e t p ((b, n) :: rest) k) op ty)).
      { intros ty op HW. unfold io_int, io_scalar. rewrite HW. rewrite fetch_ok. cbn [lift]. unfold fetchv. rs.
        change (wbytes W2) with 2. change (wbytes W1) with 1. destruct (N.leb_spec (b + 1 + 2) (lenN bc)); [|lia]. unfold dlen. rs.
        destruct (N.ltb_spec (lenN bf) (c + 1)); [lia|]. apply conts_lift. intros raw _. apply conts_lift. intros v _.
        apply conts_call. intros r. cbn [conts]. right. rs. split; [auto|]. split; [auto|]. split; [auto|].
        exists b, n, rest. split; [split; [auto|]; split; auto|]. split; [auto|]. split; [auto|]. right. split; [lia|].
        split; [|auto]. intros HE. specialize (HK1 HE). lia. }
      destruct BL2 as [->| ->]; unfold exec_op;
        match goal with |- context [classify ?x] => let y := eval vm_compute in (classify x) in change (classify x) with y end;
        cbv iota; apply EX; reflexivity.
    - rewrite BL3. rewrite align_eq by (auto; rs; auto). unfold byte_pos, position. rs. replace ((8 * c + 0 + 7) / 8) with c by lia.
      unfold exec_op.
      match goal with |- context [classify ?x] => let y := eval vm_compute in (classify x) in change (classify x) with y end.
      cbv iota. unfold arr_end, dlen. rs.
      destruct (N.eqb_spec n eof_mark) as [HE|HE].
      + rewrite HL1. destruct (N.ltb_spec c len1).
        * cbn [conts]. right. rs. split; [auto|]. split; [auto|]. split; [auto|].
          exists b, n, rest. split; [split; [auto|]; split; auto|]. split; [auto|]. split; [auto|]. left.
          split; [auto|]. split; [auto|]. split; [congruence|auto].
        * apply conts_call. intros r. cbn [conts]. apply past. cbn. specialize (HK2 HE). lia.
      + specialize (HK1 HE). destruct (N.ltb_spec 0 n); [|lia]. destruct (N.ltb_spec 0 (n - 1)).
        * cbn [conts]. right. rs. split; [auto|]. split; [auto|]. split; [auto|].
          exists b, (n - 1), rest. split; [split; [auto|]; split; auto|]. split; [auto|]. split; [auto|]. left.
          split; [auto|]. split; [lia|]. split; intros; lia.
        * apply conts_call. intros r. cbn [conts]. apply past. cbn. lia.
  Qed.
End Sim.

(** ** No instruction stops the run with CND_ERR_OK *)
Fixpoint fails (a : act) : Prop :=
  match a with Halt e _ => e <> EOk | Ask _ k => forall r, fails (k r) | _ => True end.
Lemma fails_lift {A} (x : result A) k : (forall v, fails (k v)) -> fails (lift x k).
Proof. destruct x; cbn; auto. Qed.
Lemma fails_call s key op p h k : (forall r, fails (k r)) -> fails (call s key op p h k).
Proof. intros HK r. destruct (r_ok r); [apply HK|discriminate]. Qed.
Ltac fl := repeat (cbv beta zeta; match goal with
  | |- fails (Cont _) => exact I
  | |- fails (Undef _) => exact I
  | |- fails (Halt _ _) => discriminate
  | |- fails (lift _ _) => apply fails_lift; intros ?
  | |- fails (call _ _ _ _ _ _) => apply fails_call; intros ?
  | |- fails (Ask _ _) => intros ?
  | |- fails (if ?x then _ else _) => destruct x
  | |- fails (match ?x with _ => _ end) => destruct x
  end).
Lemma exec_fails lm bc op s : fails (exec_op lm bc op s).
Proof.
  unfold exec_op. destruct (classify op).
  all: try (unfold dup_op, emit, const_write, const_check, enum_check, read_back, range_check, crc_op, scale_lin, trans_poly, trans_spline,
      trans_int, io_int, io_float, io_scalar, io_bool, io_bit_u, io_bit_i, io_bit_bool, align_pad, align_fill, put_bits, get_bits,
      str_null, str_pre, arr_pre, arr_fixed, arr_dynamic, arr_eof, arr_end, enter_array, try_bulk, loop_push, raw_bytes,
      switch_op, switch_table, jump_if_not, jump_op, jump_to, bin_op, un_op, load_ctx, store_ctx, push, pop; fl; fail).
  - unfold bin_op, pop. destruct (stk s) as [|b k]; [discriminate|]. cbn [stk set_stk]. destruct k as [|a k]; [discriminate|].
    destruct (bin_eval lm o a b) eqn:E; [unfold push; fl| |exact I].
    destruct o; cbn [bin_eval] in E;
      repeat match type of E with (if ?x then _ else _) = _ => destruct x | (match ?x with _ => _ end) = _ => destruct x end;
      inversion E; discriminate.
  - unfold un_op, pop. destruct (stk s) as [|a k]; [discriminate|].
    destruct (un_eval lm o a) eqn:E; [unfold push; fl| |exact I].
    destruct o; cbn [un_eval] in E;
      repeat match type of E with (if ?x then _ else _) = _ => destruct x | (match ?x with _ => _ end) = _ => destruct x end;
      inversion E; discriminate.
Qed.
Lemma interp_fails {H} (host : H -> request -> H * reply) a : fails a -> forall h e s h' t,
  interp host a h = (SHalt e s, h', t) -> e <> EOk.
Proof.
  induction a as [s|e s|u|rq k IH]; cbn [fails interp]; intros HF h e' s' h' t X; try discriminate.
  - inversion X; subst. auto.
  - destruct (host h rq) as [h1 r]. destruct (interp host (k r) h1) as [[x h2] t'] eqn:E. inversion X; subst. eauto.
Qed.
Lemma step_fails {H} (host : H -> request -> H * reply) lm bc s h e s' h' t :
  interp host (step lm bc s) h = (SHalt e s', h', t) -> e <> EOk.
Proof. apply interp_fails. unfold step. apply fails_lift. intros. apply exec_fails. Qed.

(** ** Runs *)
Section Runs.
  Context {H : Type} (host : H -> request -> H * reply) (lm : libm) (bc : list N).
  Hypothesis BL : lenN bc < 2 ^ 62.
  Hypothesis WB : wf_bytes bc.
  Variables (C len1 len2 : N).
  Hypothesis HC : C <= len2.
  Hypothesis HL : len2 <= len1.
  Local Notation doom := (doom bc C len1).

  Lemma doom_run fuel : forall s h s' h' t, sane s -> doom s ->
    run host lm bc fuel s h = (Done EOk s', h', t) -> 8 * C < position s'.
  Proof.
    induction fuel as [|f IH]; intros s h s' h' t HS HD; cbn [run]; [discriminate|].
    destruct (N.leb_spec (lenN bc) (ip s)) as [HI|HI].
    - inversion 1; subst. destruct HD as [|(_ & _ & _ & b & k & rest & (B1 & _) & _ & _ & HD)]; [auto|lia].
    - destruct (interp host (step lm bc s) h) as [[x h1] t1] eqn:X. destruct x as [s1|e s1|u]; [| |discriminate].
      + destruct (run host lm bc f s1 h1) as [[o h2] t2] eqn:R. inversion 1; subst.
        destruct (step_sane host lm bc BL WB s h s1 h1 t1 HS HI X) as (S1 & S2 & S3).
        eapply IH; [exact S1| |exact R].
        destruct HD as [HD|HD]; [left; lia|].
        eapply interp_conts; [|exact X]. apply (doom_step lm bc C len1 len2); auto. apply HS.
      + inversion 1; subst. elim (step_fails _ _ _ _ _ _ _ _ _ X). reflexivity.
  Qed.

  Lemma interp_sim a1 a2 : sim bc C len1 len2 a1 a2 -> forall h s1 h1 t, interp host a1 h = (SCont s1, h1, t) ->
    doom s1 \/ exists s2, same C len1 len2 s1 s2 /\ interp host a2 h = (SCont s2, h1, t).
  Proof.
    induction 1 as [a1 a2 D|s1 s2 S0|rq k1 k2 HK IH]; intros h s h1 t X.
    - left. eapply interp_conts; [|exact X]. clear - D. induction a1; cbn in *; auto.
    - cbn in X. inversion X; subst. right. exists s2. split; [auto|reflexivity].
    - cbn [interp] in *. destruct (host h rq) as [h0 r]. destruct (interp host (k1 r) h0) as [[x h2] t2] eqn:E.
      inversion X; subst. destruct (IH r _ _ _ _ E) as [D|(s2 & S2 & E2)]; [auto|]. right. exists s2. split; [auto|].
      rewrite E2. reflexivity.
  Qed.

  Lemma run_sim fuel : forall s1 s2 h s' h' t, sane s1 -> md s1 = Dec -> same C len1 len2 s1 s2 ->
    len1 = len2 \/ during host lm bc s1 h (fun s => opcode_at bc s <> 0x3A /\ Forall (fun f => snd f <> eof_mark) (loops s)) ->
    run host lm bc fuel s1 h = (Done EOk s', h', t) -> position s' <= 8 * C ->
    exists s'', same C len1 len2 s' s'' /\ run host lm bc fuel s2 h = (Done EOk s'', h', t).
  Proof.
    induction fuel as [|f IH]; intros s1 s2 h s' h' t HS HM SM HN X HP; cbn [run] in *; [discriminate|].
    assert (EI : ip s2 = ip s1) by (destruct SM as (b & -> & _); reflexivity). rewrite EI.
    destruct (N.leb_spec (lenN bc) (ip s1)) as [HI|HI].
    - inversion X; subst. exists s2. auto.
    - destruct (interp host (step lm bc s1) h) as [[x h1] t1] eqn:X1. destruct x as [s1'|e s1'|u]; [| |discriminate].
      2:{ inversion X; subst. elim (step_fails _ _ _ _ _ _ _ _ _ X1). reflexivity. }
      destruct (run host lm bc f s1' h1) as [[o h2] t2] eqn:R. inversion X; subst.
      destruct (step_sane host lm bc BL WB s1 h s1' h1 t1 HS HI X1) as (S1 & S2 & S3).
      assert (R1 : reaches host lm bc s1 h s1' h1) by (eapply reach_step; [apply reach_refl|exact HI|exact X1]).
      assert (M1 : md s1' = Dec) by (destruct (reaches_sane host lm bc WB BL s1 h s1' h1 HS R1) as (_ & _ & _ & M); congruence).
      assert (SS : sim bc C len1 len2 (step lm bc s1) (step lm bc s2)).
      { apply step_sim; auto; [apply HS|]. destruct HN as [HN|HN]; [auto|right; apply (HN s1 h); auto; constructor]. }
      destruct (interp_sim _ _ SS _ _ _ _ X1) as [D|(s2' & SM' & X2)].
      + pose proof (doom_run f _ _ _ _ _ S1 D R). lia.
      + rewrite X2. destruct (IH s1' s2' h1 s' h' t2) as (s'' & SM'' & R2); auto.
        { destruct HN as [HN|HN]; [auto|right]. intros sa ha RA HA. apply (HN sa ha); [|auto]. eapply reaches_trans; eauto. }
        exists s''. split; [auto|]. rewrite R2. reflexivity.
  Qed.
End Runs.
