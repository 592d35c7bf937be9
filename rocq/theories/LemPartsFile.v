(** Compiling packets with bit fields and checksums: the packet and the file. *)
From Coq Require Import Strings.String ZifyBool ZifyNat ZifyN.
From Verif Require Import Base SpecBytes SpecVM ModelVM ModelImage ModelText SpecText ModelNames ModelParse ModelSchema SpecParse LemBase LemStr LemText
  LemParse SpecNames LemNames SpecCrc SpecPacket LemPacket SpecMessage LemMono SpecNest LemNest LemNestFile SpecParts LemParts.
Ltac Zify.zify_post_hook ::= Z.div_mod_to_equations.

Definition singles (p : part) : list part := match p with Bits l => map (fun b => Bits [b]) l | _ => [p] end.
Lemma several_app {A} (r : A -> list word -> Prop) a wa b wb : several r a wa -> several r b wb -> several r (a ++ b) (wa ++ wb).
Proof. induction 1; intros R; [exact R|]. cbn [app]. rewrite <- app_assoc. constructor; auto. Qed.
Lemma singles_read dbl env p ws : part_read dbl env p ws -> several (part_read dbl env) (singles p) ws.
Proof.
  intros R. destruct R as [m ws R|l ws R|ds n ws ty s R K I|ds n ws ty s R K I]; cbn [singles].
  - rewrite <- (app_nil_r ws). constructor; [now constructor|constructor].
  - induction R as [|b l w wr R1 R IH]; [constructor|]. cbn [map]. constructor; [|exact IH]. constructor. rewrite <- (app_nil_r w). constructor; [exact R1|constructor].
  - rewrite <- (app_nil_r (ws ++ _)). constructor; [econstructor; eauto|constructor].
  - rewrite <- (app_nil_r (ws ++ _)). constructor; [now constructor|constructor].
Qed.
Lemma all_singles dbl env ps ws : several (part_read dbl env) ps ws -> several (part_read dbl env) (flat_map singles ps) ws.
Proof. induction 1; [constructor|]. cbn [flat_map]. apply several_app; [now apply singles_read|auto]. Qed.
Lemma singles_single ps : Forall single (flat_map singles ps).
Proof.
  induction ps as [|p ps IH]; [constructor|]. cbn [flat_map]. apply Forall_app. split; [|exact IH].
  destruct p as [m|l|ds n|ds ty n]; cbn [singles]; try (repeat constructor). apply Forall_forall. intros x I. apply in_map_iff in I as (b & <- & _). exact Logic.I.
Qed.
Lemma singles_flat {A} (f : part -> list A) ps : (forall l, flat_map (fun b => f (Bits [b])) l = f (Bits l)) -> flat_map f (flat_map singles ps) = flat_map f ps.
Proof.
  intros H. induction ps as [|p ps IH]; [reflexivity|]. cbn [flat_map]. rewrite flat_map_app, IH. f_equal. destruct p as [m|l|ds n|ds ty n]; cbn [singles flat_map]; rewrite ?app_nil_r; auto.
  rewrite <- (H l). clear. induction l; [reflexivity|]. cbn [map flat_map]. now rewrite IHl.
Qed.
Lemma singles_own ps : flat_map own_names (flat_map singles ps) = flat_map own_names ps.
Proof. apply singles_flat. intros l. cbn [own_names]. induction l as [|b l IH]; [reflexivity|]. cbn [flat_map]. rewrite app_nil_r. now f_equal. Qed.
Lemma singles_names ps : flat_map part_names (flat_map singles ps) = flat_map part_names ps.
Proof. apply singles_flat. intros l. cbn [part_names]. induction l as [|b l IH]; [reflexivity|]. cbn [flat_map]. rewrite app_nil_r. now f_equal. Qed.
Lemma singles_sym ps : parts_sym (flat_map singles ps) = parts_sym ps.
Proof. apply singles_flat. intros l. cbn [part_sym]. induction l as [|b l IH]; [reflexivity|]. cbn [flat_map map app]. now f_equal. Qed.
Lemma bit_head b ws : bit_read b ws -> exists w r, ws = w :: r /\ (fst w = TAt \/ fst w = TIdentifier).
Proof. destruct 1; eexists _, _; (split; [reflexivity|]); auto. Qed.
Lemma single_head dbl env p ws : part_read dbl env p ws -> single p -> exists w r, ws = w :: r /\ (fst w = TAt \/ fst w = TIdentifier).
Proof.
  intros R SG. destruct R as [m ws R|l ws R|ds n ws ty s R K I|ds n ws ty s R K I].
  - eapply member_head; eauto.
  - destruct R as [|b l w wr R1 R]; [destruct SG|]. destruct (bit_head _ _ R1) as (x & r & -> & K). eexists _, _. split; [reflexivity|exact K].
  - pose proof (crcdecs_at _ _ R) as K1. destruct ws as [|w ws]; [eexists _, _; split; [reflexivity|right; reflexivity]|eexists _, _; split; [reflexivity|now left]].
  - pose proof (numdecs_at _ _ _ R) as K1. destruct ws as [|w ws]; [eexists _, _; split; [reflexivity|right; reflexivity]|eexists _, _; split; [reflexivity|now left]].
Qed.
Lemma nodup_left {A} (a b : list A) x : NoDup (a ++ b) -> In x b -> ~ In x a.
Proof.
  induction a as [|y a IH]; [intros _ _ []|]. cbn [app]. intros N I [<-|J]; inversion N; subst; [|exact (IH H2 I J)]. apply H1. apply in_or_app. now right.
Qed.

Section File.
  Variable U : list (list N).
  Hypothesis UL : lenN U <= 65536.
  Hypothesis UT : Forall text U.
  Lemma single_parts_run E env b ws : several (part_read (e_strtod E) env) b ws -> Forall single b -> forall fuel ts p y x pv o T t r,
    map word_of ts = ws -> y :: x = ts ++ t :: r -> Forall plain (ts ++ [t]) -> tk t = TRbrace -> (length ts < fuel)%nat ->
    p_err p = false -> p_bitmode p = false -> plain_types p -> p_enums p = [] -> env_ok env p T -> NoDup (p_fields p ++ flat_map own_names b) ->
    Forall text (p_fields p ++ flat_map own_names b) -> stage U T -> known U (flat_map own_names b ++ flat_map part_names b) ->
    exists T', block_loop E fuel (going p y x pv o T) =
      POk tt (going (set_struct (p_sname p) (p_fields p ++ flat_map own_names b) p) t r (last ts pv) (o ++ sized (index_of T') (parts_sym b)) T') /\
      stage U T' /\ extends T T' /\ (forall z, In z (sym_refs (parts_sym b)) -> In z T').
  Proof.
    induction 1 as [|m b ws wr MR R IH]; intros SG fuel ts p y x pv o T t r M X P KT L ER BM PS PE KE ND FT ST NM; (destruct fuel as [|fuel]; [lia|]).
    - destruct ts; [|discriminate]. injection X as -> ->. exists T. split; [|split; [exact ST|split; [apply extends_refl|intros z []]]].
      cbn [block_loop]. rewrite bind_cur. rewrite is_kind_true by auto. cbn. rewrite !app_nil_r. destruct p. reflexivity.
    - apply map_eq_app in M as (t1 & t2 & -> & M1 & M2).
      pose proof (Forall_inv SG) as SM; apply Forall_inv_tail in SG; destruct (single_head _ _ _ _ MR SM) as (w & wt & EW & KW). rewrite app_length in L.
      assert (KY : tk y = TAt \/ tk y = TIdentifier).
      { destruct t1 as [|z t1]; [rewrite EW in M1; discriminate M1|]. injection X as -> _. rewrite EW in M1. apply cons_inv in M1 as (<- & _). exact KW. }
      assert (L1 : (0 < length t1)%nat) by (destruct t1; [rewrite EW in M1; discriminate M1|cbn; lia]).
      cbn [block_loop]. rewrite bind_cur, bind_get. change (p_err (going p y x pv o T)) with (p_err p). rewrite ER.
      rewrite !is_kind_false by (destruct KY as [-> | ->]; discriminate). cbn [orb]. cbn [flat_map] in ND, FT |- *.
      assert (FTP : Forall text (p_fields p)) by (apply Forall_app in FT as (FT & _); exact FT).
      assert (NI : forall q, In q (own_names m) -> ~ In q (p_fields p)) by (intros q I; eapply nodup_left; [exact ND|apply in_or_app; now left]).
      assert (exists h hs, t2 ++ t :: r = h :: hs /\ plain h /\ Forall plain (t1 ++ [h])) as (h & hs & EH & PH & PT1).
      { rewrite <- app_assoc in P. apply Forall_app in P as (A & B).
        destruct t2 as [|h hs]; [exists t, r|exists h, (hs ++ t :: r)]; (split; [reflexivity|]); pose proof (Forall_inv B) as PH; (split; [exact PH|]);
        apply Forall_app; split; auto. }
      assert (LW : length ws = length t1) by (rewrite <- M1; now rewrite map_length).
      destruct fuel as [|fuel]; [lia|].
      destruct (single_run U UL UT E env m ws MR SM fuel t1 p y x pv o T h hs M1) as (T1 & E1 & S1 & X1 & I1); auto.
      { now rewrite X, <- app_assoc, EH. }
      { lia. }
      { intros z I. apply NM. cbn [flat_map]. rewrite !in_app_iff in *. tauto. }
      set (p1 := set_struct (p_sname p) (p_fields p ++ own_names m) p) in *.
      destruct (IH SG (S fuel) t2 p1 h hs (last t1 pv) (o ++ sized (index_of T1) (part_sym m)) T1 t r M2 (eq_sym EH)) as (T2 & E2 & S2 & X2 & I2); auto.
      { rewrite <- app_assoc in P. apply Forall_app in P. apply P. }
      { lia. }
      { exact (env_more env p T T1 KE X1). }
      { cbn [p1 p_fields set_struct]. rewrite <- app_assoc. exact ND. }
      { cbn [p1 p_fields set_struct]. rewrite <- app_assoc. exact FT. }
      { intros z I. apply NM. cbn [flat_map]. rewrite !in_app_iff in *. tauto. }
      exists T2. split.
      + rewrite (bind_ok (parse_field E (S fuel)) _ _ tt _ E1), E2. f_equal. cbn [p1 p_sname p_fields set_struct]. rewrite <- !app_assoc. cbn [app]. rewrite last_two.
        change (parts_sym (m :: b)) with (part_sym m ++ parts_sym b). rewrite sized_app. rewrite (extends_sized T1 T2 (part_sym m) X2 I1). reflexivity.
      + split; [exact S2|]. split; [eapply extends_trans; eauto|]. intros z I. change (parts_sym (m :: b)) with (part_sym m ++ parts_sym b) in I.
        rewrite refs_app in I. apply in_app_iff in I as [I|I]; [eapply extends_in; [exact X2|]; now apply I1|now apply I2].
  Qed.

  Lemma parts_run E env b ws : several (part_read (e_strtod E) env) b ws -> forall fuel ts p y x pv o T t r,
    map word_of ts = ws -> y :: x = ts ++ t :: r -> Forall plain (ts ++ [t]) -> tk t = TRbrace -> (length ts < fuel)%nat ->
    p_err p = false -> p_bitmode p = false -> plain_types p -> p_enums p = [] -> env_ok env p T -> NoDup (p_fields p ++ flat_map own_names b) ->
    Forall text (p_fields p ++ flat_map own_names b) -> stage U T -> known U (flat_map own_names b ++ flat_map part_names b) ->
    exists T', block_loop E fuel (going p y x pv o T) =
      POk tt (going (set_struct (p_sname p) (p_fields p ++ flat_map own_names b) p) t r (last ts pv) (o ++ sized (index_of T') (parts_sym b)) T') /\
      stage U T' /\ extends T T' /\ (forall z, In z (sym_refs (parts_sym b)) -> In z T').
  Proof.
    intros R. apply all_singles in R. rewrite <- (singles_own b), <- (singles_names b), <- (singles_sym b). eapply single_parts_run; [exact R|apply singles_single].
  Qed.
  (** ** The packet *)
  Lemma frame_packet_run E env b ws : several (part_read (e_strtod E) env) b ws -> forall fuel ts p nt lb rb e pv o T n,
    map word_of ts = ws -> word_of nt = (TIdentifier, n) -> tk lb = TLbrace -> tk rb = TRbrace -> tk e = TEof ->
    Forall plain ts -> (length ts + 1 < fuel)%nat ->
    p_err p = false -> p_bitmode p = false -> p_enums p = [] -> plain_types p -> env_ok env p T -> find_struct (p_structs p) n = None ->
    NoDup (flat_map own_names b) -> stage U T -> known U (flat_map own_names b ++ flat_map part_names b) -> In n U ->
    exists T', parse_packet E fuel (going p nt (lb :: ts ++ [rb; e]) pv o T) =
      POk tt (going (set_struct (p_sname p) [] p) e [e] rb (o ++ sized (index_of T') ((0x07, [n], []) :: parts_sym b)) T') /\
      stage U T' /\ In n T' /\ (forall z, In z (sym_refs (parts_sym b)) -> In z T').
  Proof.
    intros R fuel ts p nt lb rb e pv o T n M WN KL KR KE P L ER BM PE PTY KEN FN ND ST NM NU. unfold parse_packet.
    assert (PB : plain lb) by (split; congruence). assert (PR : plain rb) by (split; congruence).
    assert (exists z zs, ts ++ [rb; e] = z :: zs /\ plain z) as (z & zs & EZ & PZ).
    { destruct ts as [|z zs]; [exists rb, [e]|exists z, (zs ++ [rb; e])]; (split; [reflexivity|]); auto. exact (Forall_inv P). }
    rewrite bind_cur, bind_con; [|exact (word_kind _ _ _ WN)|auto]. rewrite (word_text _ _ _ WN).
    rewrite bind_get. change (p_structs (going p lb (ts ++ [rb; e]) nt o T)) with (p_structs p). change (p_enums (going p lb (ts ++ [rb; e]) nt o T)) with (p_enums p).
    rewrite FN, PE. cbn [find_enum find some orb]. rewrite bind_when. unfold here. rewrite bind_get, bind_emit.
    change (p_out (going p lb (ts ++ [rb; e]) nt o T)) with o. rewrite bind_at, is_kind_false by congruence.
    rewrite bind_bind. unfold upd_p at 1. unfold pbind at 1.
    change (set_struct (p_sname (going p lb (ts ++ [rb; e]) nt (o ++ [7] ++ le2 65535) T)) [] (going p lb (ts ++ [rb; e]) nt (o ++ [7] ++ le2 65535) T))
      with (going (set_struct (p_sname p) [] p) lb (ts ++ [rb; e]) nt (o ++ [7] ++ le2 65535) T).
    set (p1 := set_struct (p_sname p) [] p). destruct fuel as [|fuel]; [lia|]. rewrite bind_bind. cbn [parse_block]. rewrite bind_bind, EZ, bind_con by auto.
    rewrite bind_bind.
    destruct (parts_run E env b ws R fuel ts p1 z zs lb (o ++ [7] ++ le2 65535) T rb [e] M) as (T1 & E1 & S1 & X1 & I1); auto.
    { apply Forall_app. auto. }
    { lia. }
    { cbn [p1 p_fields set_struct app]. apply Forall_forall. intros q I. apply (proj1 (Forall_forall _ _) UT). apply NM. apply in_or_app. now left. }
    rewrite (bind_ok _ _ _ _ _ E1).
    rewrite bind_end by auto. unfold upd_p, pbind at 1.
    set (o2 := _ ++ sized _ _). match goal with |- context [pbind (add_name n) _ ?q] => change q with (going p1 e [e] rb o2 T1) end.
    destruct (stage_add U UL UT T1 n S1 NU) as (S2 & L2 & X2 & I2). rewrite bind_name; [|exact (proj1 (proj2 S1))|exact L2]. set (T2 := table1 T1 n) in *.
    exists T2. split; [|split; [exact S2|split; [exact I2|intros q I; eapply extends_in; [exact X2|now apply I1]]]].
    unfold o2. replace (lenN o + 1) with (lenN (o ++ [7])) by (rewrite lenN_app; reflexivity).
    set (body := sized (index_of T1) (parts_sym b)).
    replace ((o ++ [7] ++ le2 65535) ++ body) with ((o ++ [7]) ++ le2 65535 ++ body) by (now rewrite <- !app_assoc).
    pose proof (bind_write (fun x => ret x) p1 e [e] rb (o ++ [7]) (le2 65535) body T2 (le2 (index_of T2 n)) eq_refl) as BW.
    assert (RB : forall (m : par unit) q, pbind m (fun x => ret x) q = m q) by (intros m q; unfold pbind, ret; destruct (m q); reflexivity).
    rewrite RB in BW. rewrite BW. unfold ret. f_equal. f_equal.
    change ((7, [n], []) :: parts_sym b) with ([(7, [n], []) : sym] ++ parts_sym b). rewrite sized_app, sized_one. cbn [map flat_map]. rewrite !app_nil_r.
    rewrite <- app_assoc. cbn [app]. unfold body. rewrite (extends_sized T1 T2 (parts_sym b) X2 I1). reflexivity.
  Qed.
End File.

(** ** The file *)
Definition frame_sym (k : frame) : list sym :=
  map (fun b : bool => ((if b then 0x02 else 0x01), [], [])) (fr_orders k) ++ (0x07, [fr_name k], []) :: parts_sym (fr_parts k).
Lemma frame_sym_ok id k : map (inst id) (frame_sym k) = frame_instrs id k.
Proof. unfold frame_sym, frame_instrs. rewrite map_app, map_map. f_equal. cbn [map]. f_equal. apply parts_sym_ok. Qed.
Lemma frame_refs k n : In n (sym_refs (frame_sym k)) <-> In n (frame_names k).
Proof.
  unfold frame_sym, frame_names. rewrite refs_app, !in_app_iff. change (sym_refs ((7, [fr_name k], []) :: parts_sym (fr_parts k))) with (fr_name k :: sym_refs (parts_sym (fr_parts k))).
  rewrite <- parts_refs. cbn [In]. split; [intros [I|[I|I]]; auto|intros [I|[I|[]]]; auto].
  exfalso. induction (fr_orders k) as [|b l IH]; [exact I|]. cbn in I. exact (IH I).
Qed.
Lemma part_syms dbl env p ws : part_read dbl env p ws -> (forall s b, In (s, b) env -> Forall member_wf b) -> Forall sym_ok (part_sym p).
Proof.
  intros R K. destruct R as [m ws R|l ws R|ds n ws ty s R KW I|ds n ws ty s R KW I]; cbn [part_sym].
  - pose proof (member_reads_wf _ _ _ R K) as WF. pose proof (member_copy m WF []) as C. eapply Forall_impl; [|exact C]. intros x Q. exact (proj1 Q).
  - induction R as [|b l w wr R1 R IH]; constructor; auto. destruct R1 as [ty s sg w0 n d IT IB LT WB|w0 d LT WB| |b d LT]; cbn [bit_sym].
    + assert (wf_bytes [w0]) by (constructor; [lia|constructor]). destruct sg; (split; [reflexivity|]; split; [assumption|]; split; [reflexivity|]; split; [reflexivity|]; cbn; intuition discriminate).
    + assert (wf_bytes [w0]) by (constructor; [lia|constructor]). (split; [reflexivity|]; split; [assumption|]; split; [reflexivity|]; split; [reflexivity|]; cbn; intuition discriminate).
    + easy_sym || (split; [reflexivity|]; split; [repeat constructor|]; split; [reflexivity|]; split; [reflexivity|]; cbn; intuition discriminate).
    + destruct b; (split; [reflexivity|]; split; [repeat constructor|]; split; [reflexivity|]; split; [reflexivity|]; cbn; intuition discriminate).
  - set (c := crc_of ds) in *.
    assert (O : sym_ok (check_sym c)).
    { unfold check_sym, check_instr, crc_width. rewrite KW. destruct ty; cbn [opcode args ins].
      - split; [reflexivity|]. split; [do 3 (apply Forall_app; split; [apply wf_bytes_of|]); constructor; [destruct (k_in c), (k_out c); lia|constructor]|]. split; [reflexivity|]. split; [reflexivity|]. cbn; intuition discriminate.
      - split; [reflexivity|]. split; [do 3 (apply Forall_app; split; [apply wf_bytes_of|]); constructor; [destruct (k_in c), (k_out c); lia|constructor]|]. split; [reflexivity|]. split; [reflexivity|]. cbn; intuition discriminate. }
    unfold smarked. destruct (k_big c); cbn [app]; [constructor; [easy_sym|]; constructor; [exact O|]; constructor; [easy_sym|constructor]|constructor; [exact O|constructor]].
  - apply Forall_app. split; [apply Forall_forall; intros x J; apply in_map_iff in J as (b & <- & _); easy_sym|]. apply Forall_app. split.
    + assert (W : forall z, wf_bytes (bytes_of LE 8 z)) by (intros z; apply wf_bytes_of).
      destruct (u_conv (num_of ds)); cbn [conv_sym conv_instrs map ins opcode args]; [constructor|..]; (constructor; [|constructor]);
        (split; [reflexivity|]; split; [exact (W _) || (apply Forall_app; split; apply W)|]; split; [reflexivity|]; split; [reflexivity|]; cbn; intuition discriminate).
    + assert (O : sym_ok (ty, [n], [])).
      { clear - I. cbn in I. repeat (destruct I as [I|I]; [injection I as <- _; easy_sym|]). destruct I. }
      unfold smarked. destruct (u_big (num_of ds)); cbn [app]; [constructor; [easy_sym|]; constructor; [exact O|]; constructor; [easy_sym|constructor]|constructor; [exact O|constructor]].
Qed.
Lemma frame_syms dbl env k ws : several (part_read dbl env) (fr_parts k) ws -> (forall s b, In (s, b) env -> Forall member_wf b) -> Forall sym_ok (frame_sym k).
Proof.
  intros R K. unfold frame_sym. apply Forall_app. split.
  - apply Forall_forall. intros x I. apply in_map_iff in I as (b & <- & _). destruct b; easy_sym.
  - constructor; [easy_sym|]. unfold parts_sym. induction R; cbn [flat_map]; [constructor|]. apply Forall_app. split; [eapply part_syms; eauto|auto].
Qed.
Lemma frame_run E k ws : frame_read (e_strtod E) k ws -> forall fuel path src toks,
  lex src = Some toks -> map word_of toks = ws ++ [(TEof, [])] -> Forall text (frame_all k) -> Forall (fun n => lenN n <= 255) (frame_all k) -> lenN (frame_all k) <= 65536 ->
  (length toks < fuel)%nat ->
  exists p T, parse_file E fuel path src = POk tt p /\ p_err p = false /\ p_strs p = T /\ p_out p = code (frame_instrs (index_of T) k) /\
    stage (frame_all k) T /\ (forall n, In n (frame_names k) -> In n T).
Proof.
  intros (sw & os & fw & SR & OR & FR & NN & ND & ->) fuel path src toks LX M TX LB UL L. unfold parse_file. rewrite LX.
  rewrite <- !app_assoc in M. apply map_eq_app in M as (t0 & tt0 & -> & M0 & M). apply map_eq_app in M as (t1 & tt1 & -> & M1 & M). cbn [app] in M. one_token. one_token. one_token.
  apply map_eq_app in M as (ft & tt2 & -> & M2 & M). one_token. one_token. one_token.
  rename t into kw, t2 into nt, t3 into lb, t4 into rb, t5 into e.
  assert (P0 : Forall plain t0) by (apply plain_words; rewrite M0; eapply structs_plain; eauto).
  assert (P1 : Forall plain t1) by (apply plain_words; rewrite M1; eapply orders_plain; eauto).
  assert (P2 : Forall plain ft) by (apply plain_words; rewrite M2; eapply parts_plain; eauto).
  assert (PK : plain kw) by (split; rewrite (word_kind _ _ _ W); discriminate).
  assert (PN : plain nt) by (split; rewrite (word_kind _ _ _ W0); discriminate).
  assert (PL : plain lb) by (split; rewrite (word_kind _ _ _ W1); discriminate).
  set (rest := nt :: lb :: ft ++ [rb; e]) in *.
  assert (exists z zs, t1 ++ kw :: rest = z :: zs /\ plain z /\ (tk z = TAt \/ tk z = TPacket)) as (z & zs & EZ & PZ & KZ).
  { destruct t1 as [|z zs]; [exists kw, rest|exists z, (zs ++ kw :: rest)]; (split; [reflexivity|]); (split; [auto; exact (Forall_inv P1)|]).
    - right. exact (word_kind _ _ _ W).
    - left. pose proof (order_at _ _ _ OR) as K. rewrite <- M1 in K. exact K. }
  assert (exists y x, t0 ++ t1 ++ kw :: rest = y :: x /\ plain y) as (y & x & EY & PY).
  { rewrite EZ. destruct t0 as [|y x]; [exists z, zs; auto|exists y, (x ++ z :: zs); split; [reflexivity|exact (Forall_inv P0)]]. }
  set (p0 := parser0 path (t0 ++ t1 ++ kw :: rest)).
  assert (LO : (length t1 = 2 * length (fr_orders k))%nat) by (rewrite <- (orders_len _ _ _ OR), <- M1; now rewrite map_length).
  unfold rest in L. rewrite !app_length in L. cbn [length] in L. rewrite app_length in L. cbn [length] in L. fold rest in L.
  assert (A : advance p0 = POk tt (going p0 y x token0 [] [])).
  { change p0 with (going p0 token0 (t0 ++ t1 ++ kw :: rest) token0 [] []) at 1. rewrite EY. now apply advance_going. }
  rewrite (bind_ok advance _ _ tt _ A).
  set (U := frame_all k) in *.
  assert (KN : forall l, incl l U -> known U l).
  { intros l I q J. split; [now apply I|]. exact (proj1 (Forall_forall _ _) LB q (I q J)). }
  assert (KS : known U (flat_map (fun d : structure => flat_map (member_names []) (snd d)) (fr_structs k))) by (apply KN; intros q I; apply in_or_app; now left).
  assert (KM : known U (flat_map own_names (fr_parts k) ++ flat_map part_names (fr_parts k))) by (apply KN; intros q I; unfold U, frame_all, frame_names; rewrite !in_app_iff in *; tauto).
  assert (NU : In (fr_name k) U) by (unfold U, frame_all, frame_names; rewrite !in_app_iff; cbn [In]; tauto).
  destruct (structs_run U UL TX E [] (fr_structs k) sw SR fuel t0 p0 y x token0 [] [] z zs M0) as (f1 & p1 & pv1 & T1 & E1 & L1 & RD & S1 & X1 & D1); auto.
  { now rewrite <- EY, EZ. }
  { lia. }
  { split; [repeat split|]. split; [reflexivity|]. split; [intros w0 []|intros w0 b0 []]. }
  { split; [constructor|split; [constructor|intros q []]]. }
  rewrite E1. pose proof (ready_types _ _ _ RD) as PTY. cbn [app] in RD. destruct RD as ((ER & BM & UA & PE & SN & PKT) & ES & TN & KE).
  destruct f1 as [|f1]; [lia|]. cbn [top_level]. rewrite bind_cur, bind_get.
  change (p_err (going p1 z zs pv1 [] T1)) with (p_err p1). rewrite ER. rewrite !is_kind_false by (destruct KZ as [-> | ->]; discriminate). cbn [orb].
  rewrite (bind_ok (top_decorators E f1) _ _ tt (going p1 kw rest (last t1 pv1) ([] ++ code (order_code (fr_orders k))) T1)).
  2:{ apply (top_orders_run E _ os OR); auto; [apply Forall_app; auto|rewrite (word_kind _ _ _ W); discriminate|lia]. }
  rewrite bind_get. cbv beta. set (g := going p1 kw rest (last t1 pv1) ([] ++ code (order_code (fr_orders k))) T1). change (p_cur g) with kw.
  rewrite (word_kind _ _ _ W). cbv iota. rewrite bind_bind, bind_get. change (p_packets g) with (p_packets p1). rewrite PKT. change (0 <? 0) with false. rewrite bind_bind, bind_when.
  rewrite bind_bind. unfold upd_p. unfold pbind at 1.
  set (p2 := set_packets (0 + 1) p1). match goal with |- context [pbind (advance ;; parse_packet E f1) _ ?q] => change q with (going p2 kw rest (last t1 pv1) (code (order_code (fr_orders k))) T1) end.
  rewrite bind_bind. unfold rest. rewrite bind_adv by auto.
  destruct (frame_packet_run U UL TX E (fr_structs k) (fr_parts k) fw FR f1 ft p2 nt lb rb e kw (code (order_code (fr_orders k))) T1 (fr_name k) M2 W0
    (word_kind _ _ _ W1) (word_kind _ _ _ W2) (word_kind _ _ _ W3) P2 ltac:(lia) ER BM PE PTY KE) as (T2 & E2 & S2 & I2 & J2); auto.
  { apply find_missing. cbn [p2 p_structs set_packets]. now rewrite ES. }
  rewrite (bind_ok _ _ _ _ _ E2).
  destruct f1 as [|f1]; [lia|]. cbn [top_level]. rewrite bind_cur, bind_get. rewrite is_kind_true by exact (word_kind _ _ _ W3). cbn [orb].
  rewrite bind_get. match goal with |- context [when ?b error ?q] => change (when b error q) with (POk tt q) end.
  eexists _, T2. split; [reflexivity|]. split; [exact ER|]. split; [reflexivity|]. split.
  - rewrite <- frame_sym_ok. fold (sized (index_of T2) (frame_sym k)). unfold frame_sym. rewrite sized_app. cbn [going p_out set_tok set_out set_strs]. f_equal.
    unfold sized, order_code. f_equal. rewrite map_map. apply map_ext. intros []; reflexivity.
  - split; [exact S2|]. intros n I. apply in_app_iff in I as [I|[<-|[]]]; [|exact I2]. apply J2. now apply parts_refs.
Qed.
Lemma compile_frame E k ws path src toks : frame_read (e_strtod E) k ws -> e_read E (e_canon E path) = Some src -> lex src = Some toks ->
  map word_of toks = ws ++ [(TEof, [])] -> Forall text (frame_all k) -> Forall (fun n => lenN n <= 255) (frame_all k) -> lenN (frame_all k) <= 65536 ->
  exists names, NoDup names /\ (forall s, In s names <-> In s (frame_names k)) /\
    forall fuel, (length toks < fuel)%nat -> compile_file E fuel path = CImage (image names (code (frame_instrs (index_of names) k))).
Proof.
  intros SR RD LX M TX LB UL.
  destruct (frame_run E k ws SR (S (length toks)) (e_canon E path) src toks LX M TX LB UL ltac:(lia)) as (p0 & T & E0 & ER & ES & EO0 & ST & NI).
  assert (SO : Forall sym_ok (frame_sym k)).
  { destruct SR as (sw & os & fw & SR & OR & FR & _). eapply frame_syms; [exact FR|]. intros s b I. apply (structs_read_wf [] _ sw SR) with (s := s); [intros ? ? []|exact I]. }
  assert (NT : Forall (fun x : sym => Forall (fun n => In n T) (snd (fst x))) (frame_sym k)).
  { apply Forall_forall. intros x I. apply Forall_forall. intros n J. apply NI, frame_refs. apply in_flat_map. eauto. }
  pose proof (stage_len _ UL T ST) as SL. destruct ST as (NDT & TT & INC).
  assert (WF : Forall (well_formed T) (frame_instrs (index_of T) k) /\ Forall optimiser_reads (frame_instrs (index_of T) k)).
  { rewrite <- frame_sym_ok. split; apply Forall_forall; intros i I; apply in_map_iff in I as (x & <- & I);
      pose proof (proj1 (Forall_forall _ _) SO x I) as O; pose proof (proj1 (Forall_forall _ _) NT x I) as Q; destruct x as [[op ns] a]; cbn [sym_ok fst snd] in O, Q;
      destruct O as (O1 & O2 & O3 & O4 & O5).
    - split; [exact O1|]. split; [exact O2|]. split; [exact O3|]. cbn [inst ins refs opcode fst snd]. split; [unfold lenN in *; now rewrite map_length|].
      apply Forall_forall. intros z Z. apply in_map_iff in Z as (n & <- & J). pose proof (index_bound T n (proj1 (Forall_forall _ _) Q n J)). lia.
    - unfold optimiser_reads. cbn [inst ins opcode fst snd]. cbn [In] in O5. split; [cbn [In]; intuition|]. split; [intuition|]. intros ->. exfalso. apply O5. auto 8. }
  destruct WF as (WF & OP).
  assert (TN : T <> []). { intros E1. assert (I : In (fr_name k) T) by (apply NI; unfold frame_names; apply in_or_app; right; left; auto). rewrite E1 in I. destruct I. }
  destruct (optimize_spec T _ TT SL WF OP TN) as (names & p' & EO & SI & ND' & RF).
  pose proof SI as SI'. rewrite <- frame_sym_ok in SI'. apply renumber in SI'; auto. rewrite frame_sym_ok in SI'. subst p'.
  exists names. split; [exact ND'|]. split.
  - intros s. rewrite RF, <- frame_refs. split.
    + intros (i & kk & I & J & LK & EN). rewrite <- frame_sym_ok in I. apply in_map_iff in I as (x & <- & I). cbn [inst ins refs] in J. apply in_map_iff in J as (n & <- & J).
      rewrite nth_index in EN by (exact (proj1 (Forall_forall _ _) (proj1 (Forall_forall _ _) NT x I) n J)). subst s. apply in_flat_map. eauto.
    + intros I. assert (IT : In s T) by (now apply NI, frame_refs). apply in_flat_map in I as (x & I & J). exists (inst (index_of T) x), (index_of T s). rewrite <- frame_sym_ok.
      split; [now apply in_map|]. split; [cbn [inst ins refs]; now apply in_map|]. split; [now apply index_bound|now apply nth_index].
  - assert (C0 : compile_file E (S (length toks)) path = CImage (image names (code (frame_instrs (index_of names) k)))).
    { unfold compile_file. rewrite RD, E0, ER, ES, EO0. now rewrite EO. }
    intros fuel L. rewrite (compile_mono E (S (length toks)) fuel path) by (lia || (rewrite C0; discriminate)). exact C0.
Qed.
