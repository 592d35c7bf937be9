(** Compiling whole files: enumerations, then a packet with decorated fields and conditionals. *)
From Coq Require Import Strings.String ZifyBool ZifyNat ZifyN.
From Verif Require Import Base SpecBytes SpecVM ModelVM ModelImage ModelText SpecText ModelNames ModelParse ModelSchema SpecParse LemBase LemStr LemText
  LemLex LemParse SpecNames LemNames LemKept SpecPacket LemPacket LemSend SpecMessage LemAccept SpecFlow LemLayout SpecSource LemSource.
From Verif Require LemEnds.
Ltac Zify.zify_post_hook ::= Z.div_mod_to_equations.

(** ** Enumerations *)
Lemma wrap_in ty z : in_type ty z -> (z < 2 ^ 63 - 1)%Z -> wrap64 z = z /\ (z =? 2 ^ 63 - 1)%Z = false.
Proof.
  unfold in_type. intros F L. destruct (type_bytes ty) as [n|] eqn:TB; [|destruct F]. apply int_types in TB. split; [|lia].
  unfold fits in F. unfold wrap64. change (2 ^ 63)%Z with 9223372036854775808%Z in *. change (2 ^ 64)%Z with 18446744073709551616%Z.
  cbn [In] in TB. decompose [or] TB; try contradiction; match goal with H : _ = _ |- _ => injection H as <- <- end; cbn in F; lia.
Qed.
Lemma new_value vals (z : Z) : ~ In z (map (@snd (list N) Z) vals) -> existsb (fun x => (snd x =? z)%Z) vals = false.
Proof.
  induction vals as [|x l IH]; intros NI; [reflexivity|]. cbn [existsb map In] in *. rewrite IH by tauto.
  destruct (Z.eqb_spec (snd x) z); [tauto|reflexivity].
Qed.
Lemma members_head ty next l ws : members_read ty next l ws -> match ws with [] => True | w :: _ => fst w = TIdentifier end.
Proof. destruct 1; cbn; auto. Qed.
Lemma members_run ty next l ws : members_read ty next l ws -> forall ts p y x pv o s t r names vals,
  map word_of ts = ws -> y :: x = ts ++ t :: r -> Forall plain (ts ++ [t]) -> tk t = TRbrace -> p_err p = false ->
  NoDup (names ++ map fst l) -> NoDup (map snd vals ++ map snd l) -> Forall text (names ++ map fst l) ->
  forall f, (length ts < f)%nat -> enum_loop f names vals next (going p y x pv o s) = POk (vals ++ l) (going p t r (last ts pv) o s).
Proof.
  (* one member, whose value has been read, and what follows *)
  assert (ONE : forall ty z n c l ws, (z < 2 ^ 63 - 1)%Z -> comma c -> members_read ty (z + 1) l ws ->
    (forall ts p y x pv o s t r names vals,
      map word_of ts = ws -> y :: x = ts ++ t :: r -> Forall plain (ts ++ [t]) -> tk t = TRbrace -> p_err p = false ->
      NoDup (names ++ map fst l) -> NoDup (map snd vals ++ map snd l) -> Forall text (names ++ map fst l) ->
      forall f, (length ts < f)%nat -> enum_loop f names vals (z + 1) (going p y x pv o s) = POk (vals ++ l) (going p t r (last ts pv) o s)) ->
    forall ts p y x pv o s t r names vals,
      map word_of ts = c ++ ws -> y :: x = ts ++ t :: r -> Forall plain (ts ++ [t]) -> tk t = TRbrace -> p_err p = false ->
      NoDup ((names ++ [n]) ++ map fst l) -> NoDup (map snd vals ++ z :: map snd l) -> Forall text ((names ++ [n]) ++ map fst l) ->
      forall f, (length ts < f)%nat ->
      pbind (when (existsb (fun x => (snd x =? z)%Z) vals) error) (fun _ =>
        if (z =? 2 ^ 63 - 1)%Z then undef UOverflow
        else pbind (at_kind TComma) (fun b => pbind (when b advance) (fun _ => enum_loop f (names ++ [n]) (vals ++ [(n, z)]) (z + 1)))) (going p y x pv o s)
      = POk (vals ++ (n, z) :: l) (going p t r (last ts pv) o s)).
  { intros ty0 z n c l0 ws0 LZ CM MR IH ts p y x pv o s t r names vals M X P KT ER NN NV TX f L.
    rewrite new_value by (intros I; apply NoDup_remove_2 in NV; apply NV; apply in_or_app; auto). rewrite bind_when.
    replace (z =? 2 ^ 63 - 1)%Z with false by lia. rewrite bind_at.
    assert (NV' : NoDup (map snd (vals ++ [(n, z)]) ++ map snd l0)) by (rewrite map_app, <- app_assoc; exact NV).
    replace (vals ++ (n, z) :: l0) with ((vals ++ [(n, z)]) ++ l0) by now rewrite <- app_assoc.
    destruct CM as [-> | ->].
    - cbn [app] in M. one_token. cbn [app] in X, P. injection X as -> ->. apply Forall_inv_tail in P.
      destruct (next_of ts t r P) as (h & hs & EH & PH). rewrite is_kind_true by exact (word_kind _ _ _ W).
      change (when true advance) with advance. rewrite EH, bind_adv by auto. rewrite last_cons.
      eapply IH; eauto. cbn [length] in L. lia.
    - cbn [app] in M. rewrite is_kind_false; [rewrite bind_when; eapply IH; eauto|].
      pose proof (members_head _ _ _ _ MR) as MH. destruct ts as [|q ts]; [injection X as -> _; congruence|].
      injection X as -> _. rewrite <- M in MH. cbn in MH. congruence. }
  assert (NEW : forall names n r, NoDup (names ++ n :: r) -> Forall text (names ++ n :: r) -> fst (strtab_add names n) = names ++ [n] /\ (lenN (names ++ [n]) =? lenN names) = false).
  { intros names n r ND TX. apply Forall_app in TX as (TX & _). split.
    - change (fst (strtab_add names n)) with (table1 names n). rewrite table1_eq by auto. destruct in_dec as [I|I]; [|reflexivity].
      exfalso. apply NoDup_remove_2 in ND. apply ND. apply in_or_app; auto.
    - rewrite lenN_app. change (lenN [n]) with 1. lia. }
  induction 1 as [next|next n c l ws IT LZ CM MR IH|next n u z c l ws WR LZ CM MR IH]; intros ts p y x pv o s t r names vals M X P KT ER NN NV TX f L;
    (destruct f as [|f]; [lia|]); cbn [enum_loop]; rewrite bind_cur, bind_get; change (p_err (going p y x pv o s)) with (p_err p); rewrite ER.
  - one_token. injection X as -> ->. rewrite is_kind_true by auto. cbn [orb]. rewrite app_nil_r. reflexivity.
  - one_token. cbn [app] in X, P. injection X as -> ->. pose proof (Forall_inv P) as P0. apply Forall_inv_tail in P.
    destruct (next_of ts t r P) as (h & hs & EH & PH). rewrite !is_kind_false by (rewrite (word_kind _ _ _ W); discriminate). cbn [orb].
    rewrite EH, bind_con; [|exact (word_kind _ _ _ W)|auto]. rewrite (word_text _ _ _ W). cbn [map fst snd] in NN, NV, TX.
    destruct (NEW _ _ _ NN TX) as (-> & ->). rewrite bind_when, bind_at. rewrite is_kind_false.
    2:{ pose proof (members_head _ _ _ _ MR) as MH. destruct ts as [|q ts]; [injection EH as -> _; congruence|]. injection EH as -> _.
        destruct CM as [-> | ->]; cbn [app map] in M; [apply cons_inv in M as (MQ & _); rewrite (word_kind _ _ _ MQ); discriminate|].
        rewrite <- M in MH. cbn in MH. congruence. }
    rewrite bind_ret. rewrite last_cons. apply (ONE ty next n c l ws LZ CM MR IH ts); auto; try (rewrite <- app_assoc; auto). cbn [length] in L. lia.
  - one_token. one_token. one_token. cbn [app] in X, P. injection X as -> ->. pose proof (Forall_inv P) as P0. apply Forall_inv_tail in P.
    pose proof (Forall_inv P) as P1. apply Forall_inv_tail in P. pose proof (Forall_inv P) as P2. apply Forall_inv_tail in P.
    destruct (next_of ts t r P) as (h & hs & EH & PH). rewrite !is_kind_false by (rewrite (word_kind _ _ _ W); discriminate). cbn [orb].
    rewrite EH, bind_con; [|exact (word_kind _ _ _ W)|auto]. rewrite (word_text _ _ _ W). cbn [map fst snd] in NN, NV, TX.
    destruct (NEW _ _ _ NN TX) as (-> & ->). rewrite bind_when, bind_at. rewrite is_kind_true by exact (word_kind _ _ _ W0).
    rewrite bind_bind, bind_adv by auto. rewrite (bind_i64 ty u z); [|exact (word_kind _ _ _ W1)|exact (word_text _ _ _ W1)|auto|auto].
    rewrite (proj1 (wrap_in ty z (writes_type _ _ _ WR) LZ)).
    rewrite !last_cons. apply (ONE ty z n c l ws LZ CM MR IH ts); auto; try (rewrite <- app_assoc; auto). cbn [length] in L. lia.
Qed.
Lemma enum_fact ty s : In (ty, s) enum_words -> enum_base (of_word (ident s)) = Some ty /\ type_bytes ty <> None.
Proof.
  intros I. assert (F : forallb (fun x => opt_is (enum_base (of_word (ident (snd x)))) (fst x) && some (type_bytes (fst x))) enum_words = true) by (vm_compute; reflexivity).
  pose proof (in_forallb _ _ F _ I) as G. cbn [fst snd] in G. apply andb_true_iff in G as (G1 & G2). unfold opt_is in G1.
  destruct (enum_base _) as [m|]; [|discriminate]. apply N.eqb_eq in G1. subst. split; [reflexivity|]. destruct (type_bytes ty); [discriminate|discriminate].
Qed.
Lemma base_word t w : word_of t = w -> enum_base t = enum_base (of_word w).
Proof. intros W. unfold enum_base. rewrite (keyword_word t), (int_word t), W. reflexivity. Qed.
Lemma enum_type e ws : enum_read e ws -> type_bytes (m_type e) <> None.
Proof. intros (t & ms & [(_ & ->)|(s & I & _)] & _); [discriminate|]. now apply enum_fact in I. Qed.
Definition noted (w : list site) p := mkp (p_toks p) (p_cur p) (p_prev p) (p_out p) (p_strs p) (p_structs p) (p_enums p) (p_imports p) (p_path p)
  (p_sname p) (p_fields p) (p_err p) (p_packets p) (p_depth p) (p_unaligned p) (p_bitmode p) (p_bits p) (p_bits_valid p) (p_errs p) w.
Lemma enum_run E e ws : enum_read e ws -> forall ts p kw x pv o s t r done,
  map word_of ts = ws -> kw :: x = ts ++ t :: r -> Forall plain (ts ++ [t]) -> p_err p = false -> p_structs p = [] -> p_enums p = map edef done ->
  ~ In (m_name e) (map m_name done) -> Forall text (map fst (m_members e)) ->
  exists w, forall f, (length ts < f)%nat ->
  top_level E (S f) (going p kw x pv o s) = top_level E f (going (noted w (set_defs [] (map edef (done ++ [e])) p)) t r (last ts pv) o s).
Proof.
  intros (tw & ms & TR & MR & NM & NV & LM & ->) ts p kw x pv o s t r done M X P ER PS PE NI TX.
  one_token. one_token. cbn [app] in X, P. injection X as <- ->. pose proof (Forall_inv P) as P0. apply Forall_inv_tail in P.
  pose proof (Forall_inv P) as P1. apply Forall_inv_tail in P. rename t1 into nt.
  exists (p_sites p ++ [{| site_enum := true; site_name := ttext nt; site_line := tline nt; site_path := p_path p |}]). intros f L.
  cbn [top_level]. rewrite bind_cur, bind_get. change (p_err (going p kw (nt :: ts ++ t :: r) pv o s)) with (p_err p). rewrite ER.
  rewrite !is_kind_false by (rewrite (word_kind _ _ _ W); discriminate). cbn [orb]. destruct f as [|f]; [cbn in L; lia|].
  rewrite (bind_ok (top_decorators E (S f)) _ _ tt (going p kw (nt :: ts ++ t :: r) pv o s)).
  2:{ cbn [top_decorators]. rewrite bind_at, is_kind_false by (rewrite (word_kind _ _ _ W); discriminate). reflexivity. }
  rewrite bind_get. change (p_cur (going p kw (nt :: ts ++ t :: r) pv o s)) with kw. rewrite (word_kind _ _ _ W). cbv iota.
  rewrite bind_bind, bind_adv by auto.
  apply map_eq_app in M as (t2 & t3 & -> & M1 & M). cbn [app] in M. one_token. apply map_eq_app in M as (mt & t4 & -> & M2 & M). one_token. one_token.
  rename t0 into lb. rename t1 into rb.
  rewrite <- app_assoc in P |- *. cbn [app] in P |- *. rewrite <- app_assoc in P |- *. cbn [app] in P |- *.
  apply Forall_app in P as (PT & P). pose proof (Forall_inv P) as PL. apply Forall_inv_tail in P. change [rb; t] with ([rb] ++ [t]) in P. rewrite app_assoc in P.
  apply Forall_app in P as (P & PE'). apply Forall_inv in PE'.
  destruct (next_of mt rb (t :: r) P) as (h & hs & EH & PH).
  destruct (next_of t2 lb (h :: hs) ltac:(apply Forall_app; auto)) as (g & gs & EG & PG).
  rewrite EH, EG. rewrite (bind_ok (parse_enum (S f)) _ _ tt (going (noted (p_sites p ++ [{| site_enum := true; site_name := ttext nt; site_line := tline nt; site_path := p_path p |}]) (set_defs [] (map edef (done ++ [e])) p)) t r rb o s)).
  { do 2 f_equal. rewrite !last_cons, last_two, last_cons, last_two. reflexivity. }
  unfold parse_enum. rewrite bind_cur, bind_con; [|exact (word_kind _ _ _ W0)|auto]. rewrite (word_text _ _ _ W0).
  rewrite bind_get. change (p_structs (going p g gs nt o s)) with (p_structs p). change (p_enums (going p g gs nt o s)) with (p_enums p).
  rewrite PS, PE, (find_none _ _ NI). cbn [find_struct find option_map some orb]. rewrite bind_when.
  assert (TY : forall (k : N -> par unit), pbind (at_kind TColon) (fun colon => pbind (
      if colon : bool then advance ;; let% t := get p_cur in consume TIdentifier ;; match enum_base t with Some op => ret op | None => error ;; ret 18 end else ret 18) k)
      (going p g gs nt o s) = k (m_type e) (going p lb (h :: hs) (last t2 nt) o s)).
  { intros k. rewrite bind_at. destruct TR as [(-> & ->)|(u & I & ->)].
    - one_token. injection EG as <- <-. rewrite is_kind_false by (rewrite (word_kind _ _ _ W1); discriminate). reflexivity.
    - one_token. one_token. one_token. cbn [app] in EG. injection EG as <- <-. pose proof (Forall_inv PT) as PA. pose proof (Forall_inv (Forall_inv_tail PT)) as PB.
      rewrite is_kind_true by exact (word_kind _ _ _ W3). rewrite bind_bind, bind_adv by auto. rewrite bind_bind, bind_cur, bind_bind, bind_con; [|exact (word_kind _ _ _ W4)|auto].
      rewrite (base_word _ _ W4), (proj1 (enum_fact _ _ I)). reflexivity. }
  rewrite TY. rewrite bind_con; [|exact (word_kind _ _ _ W1)|auto].
  rewrite (bind_ok _ _ _ (m_members e) (going p rb (t :: r) (last mt lb) o s)).
  2:{ apply (members_run _ _ _ _ MR mt p h hs lb o s rb (t :: r) [] []); auto; [exact (word_kind _ _ _ W2)|]. cbn [length] in L. rewrite app_length in L. cbn [length] in L. rewrite app_length in L. cbn [length] in L. lia. }
  rewrite bind_con; [|exact (word_kind _ _ _ W2)|auto]. unfold upd_p. rewrite map_app.
  change (p_structs (going p t r rb o s)) with (p_structs p). change (p_enums (going p t r rb o s)) with (p_enums p). rewrite PS, PE. unfold add_site. rewrite (word_text _ _ _ W0). reflexivity.
Qed.
Lemma enums_run E es ws : enums_read es ws -> forall ts p y x pv o s t r done,
  map word_of ts = ws -> y :: x = ts ++ t :: r -> Forall plain (ts ++ [t]) -> p_err p = false -> p_structs p = [] -> p_enums p = map edef done ->
  NoDup (map m_name (done ++ es)) -> Forall (fun e => Forall text (map fst (m_members e))) es ->
  exists w, forall f, (length ts < f)%nat ->
  top_level E (length es + f) (going p y x pv o s) = top_level E f (going (noted w (set_defs [] (map edef (done ++ es)) p)) t r (last ts pv) o s).
Proof.
  induction 1 as [|e l ws wr ER R IH]; intros ts p y x pv o s t r done M X P EP PS PE ND TX.
  - one_token. injection X as -> ->. rewrite app_nil_r. exists (p_sites p). intros f L. cbn [length Nat.add]. do 2 f_equal. destruct p; cbn in *. subst. reflexivity.
  - apply map_eq_app in M as (t1 & t2 & -> & M1 & M2). rewrite <- app_assoc in X, P. destruct (next_of t2 t r ltac:(apply Forall_app in P; apply P)) as (h & hs & EH & PH).
    destruct (plain_mid _ _ _ P h hs r EH) as (P1 & P2).
    destruct (enum_run E e ws ER t1 p y x pv o s h hs done M1 ltac:(now rewrite X, EH) P1 EP PS PE) as (w1 & R1).
    { rewrite map_app in ND. cbn [map] in ND. apply NoDup_remove_2 in ND. intros I. apply ND. apply in_or_app. auto. }
    { exact (Forall_inv TX). }
    destruct (IH t2 (noted w1 (set_defs [] (map edef (done ++ [e])) p)) h hs (last t1 pv) o s t r (done ++ [e]) M2 (eq_sym EH) P2) as (w2 & R2); auto.
    { now rewrite <- app_assoc. }
    { exact (Forall_inv_tail TX). }
    exists w2. intros f L. rewrite app_length in L. cbn [length Nat.add]. rewrite R1 by lia. rewrite R2 by lia. rewrite last_two, <- app_assoc. reflexivity.
Qed.

(** ** The packet *)
Definition body_sym (k : source) : list sym := (0x07, [s_name k], []) :: prog_sym (s_body k).
Lemma body_run E k ws : prog_read (s_enums k) (s_body k) ws -> enums_ok (s_enums k) -> forall ts p nt lb rb e pv o s,
  map word_of ts = ws -> word_of nt = (TIdentifier, s_name k) -> tk lb = TLbrace -> tk rb = TRbrace -> tk e = TEof -> Forall plain ts ->
  calm (s_enums k) p -> NoDup (field_names (s_body k)) -> ~ In (s_name k) (map m_name (s_enums k)) ->
  Forall text (field_names (s_body k)) -> Forall text (prog_names (s_body k)) -> Forall text s -> lenN (table s (source_names k)) <= 65536 ->
  let T := table s (source_names k) in
  exists n, forall fuel, (n <= fuel)%nat -> parse_packet E fuel (going p nt (lb :: ts ++ [rb; e]) pv o s) =
  POk tt (going (set_struct (p_sname p) [] p) e [e] rb (o ++ syms_code (index_of T) (body_sym k)) T).
Proof.
  intros R EO ts p nt lb rb e pv o s M WN KL KR KE P CA ND NI FF FT ST SL T.
  assert (PB : plain lb) by (split; congruence). assert (PR : plain rb) by (split; congruence).
  assert (PP : Forall plain (ts ++ [rb])) by (apply Forall_app; auto).
  destruct (next_of ts rb [e] PP) as (z & zs & EZ & PZ).
  set (p1 := set_struct (p_sname p) [] p). unfold source_names in *. set (n := s_name k) in *. set (ns := prog_names (s_body k)) in *.
  assert (SM : small s ns T).
  { unfold small, T. rewrite table_snoc in SL |- *.
    pose proof (table_len (table s ns) [n]) as LL. split; [auto|]. split; [auto|]. split; [lia|]. exact (table_app [n] (table s ns)). }
  destruct (proj1 (proj1 (prog_run E (s_enums k) EO) _ _ R) ts p1 z zs lb (o ++ [7] ++ le2 65535) s rb [e] T M (eq_sym EZ) PP KR) as (m & K).
  { exact CA. } { exact ND. } { exact FF. } { exact SM. }
  exists (S m). intros fuel L. destruct fuel as [|fuel]; [lia|]. specialize (K fuel ltac:(lia)). unfold parse_packet.
  rewrite bind_cur, bind_con; [|exact (word_kind _ _ _ WN)|auto]. rewrite (word_text _ _ _ WN).
  destruct CA as (C1 & C2 & C3 & C4).
  rewrite bind_get. change (p_structs (going p lb (ts ++ [rb; e]) nt o s)) with (p_structs p). change (p_enums (going p lb (ts ++ [rb; e]) nt o s)) with (p_enums p).
  rewrite C3, C4, (find_none _ _ NI). cbn [find_struct find option_map some orb]. rewrite bind_when. unfold here. rewrite bind_get, bind_emit.
  change (p_out (going p lb (ts ++ [rb; e]) nt o s)) with o. rewrite bind_at, is_kind_false by congruence.
  rewrite bind_bind. unfold upd_p at 1. unfold pbind at 1.
  change (set_struct (p_sname (going p lb (ts ++ [rb; e]) nt (o ++ [7] ++ le2 65535) s)) [] (going p lb (ts ++ [rb; e]) nt (o ++ [7] ++ le2 65535) s))
    with (going p1 lb (ts ++ [rb; e]) nt (o ++ [7] ++ le2 65535) s).
  rewrite bind_bind. cbn [parse_block]. rewrite bind_bind, EZ, bind_con by auto. rewrite bind_bind.
  rewrite (bind_ok (block_loop E fuel) _ _ tt _ K).
  rewrite bind_end by auto. unfold upd_p, pbind at 1. fold ns.
  set (o2 := _ ++ syms_code _ _). set (s2 := table s _).
  match goal with |- pbind _ _ ?q = _ => change q with (going p1 e [e] rb o2 s2) end.
  assert (TX : Forall text s2) by (apply table_text; auto).
  assert (ET : T = table1 s2 n) by (unfold T, s2; rewrite table_snoc; reflexivity).
  rewrite bind_name; [|exact TX|rewrite <- ET; exact SL]. rewrite <- ET.
  unfold o2. replace (lenN o + 1) with (lenN (o ++ [7])) by (rewrite lenN_app; reflexivity).
  set (c := syms_code (index_of T) (prog_sym (s_body k))).
  replace ((o ++ [7] ++ le2 65535) ++ c) with ((o ++ [7]) ++ le2 65535 ++ c) by (now rewrite <- !app_assoc).
  pose proof (bind_write (fun x => ret x) p1 e [e] rb (o ++ [7]) (le2 65535) c T (le2 (index_of T n)) eq_refl) as BW.
  assert (RB : forall (m : par unit) q, pbind m (fun x => ret x) q = m q) by (intros m0 q; unfold pbind, ret; destruct (m0 q); reflexivity).
  rewrite RB in BW. rewrite BW. unfold ret. f_equal. f_equal.
  rewrite <- app_assoc. reflexivity.
Qed.

(** ** The words are plain *)
Lemma members_plain ty next l ws : members_read ty next l ws -> Forall plain_word ws.
Proof.
  induction 1 as [|? ? ? ? ? ? ? C R IH|? ? ? ? ? ? ? ? ? C R IH]; [auto| |]; repeat (constructor; [split; discriminate|]);
    (apply Forall_app; split; [destruct C as [-> | ->]; repeat constructor; discriminate|auto]).
Qed.
Lemma enum_plain e ws : enum_read e ws -> Forall plain_word ws.
Proof.
  intros (t & ms & TR & MR & _ & _ & _ & ->). apply members_plain in MR. repeat (constructor; [split; discriminate|]).
  apply Forall_app. split; [destruct TR as [(-> & _)|(s & _ & ->)]; repeat constructor; discriminate|]. constructor; [split; discriminate|].
  apply Forall_app. split; [auto|]. repeat constructor; discriminate.
Qed.
Lemma enums_plain es ws : enums_read es ws -> Forall plain_word ws.
Proof. induction 1 as [|? ? ? ? ER]; auto. apply Forall_app. split; auto. now apply enum_plain in ER. Qed.
Lemma decs_plain ty l ws : decs_read ty l ws -> Forall plain_word ws.
Proof. induction 1 as [|? ? ? ? DR]; auto. apply Forall_app. split; auto. destruct DR; repeat (constructor; [split; discriminate|]); constructor. Qed.
Lemma item_plain es f ws : item_read es f ws -> Forall plain_word ws.
Proof.
  intros (ds & t & DR & TR & _ & ->). apply Forall_app. split; [now apply decs_plain in DR|]. constructor; [destruct TR; split; discriminate|].
  repeat (constructor; [split; discriminate|]). constructor.
Qed.
Lemma dotted_plain ws n : dotted ws n -> Forall plain_word ws.
Proof.
  induction 1 as [|? ? ? ? ? IH D]; [repeat constructor; discriminate|]. apply Forall_app. split; auto. constructor; [split; rewrite D; discriminate|]. repeat constructor; discriminate.
Qed.
Lemma reads_plain full lv ws e : reads full lv ws e -> Forall plain_word ws.
Proof.
  induction 1; unfold fixed in *;
    try match goal with D : dotted ?ws _ |- Forall _ ?ws => now apply dotted_plain in D end;
    repeat (apply Forall_app; split); repeat constructor; auto; cbn [fst] in *;
    repeat match goal with H : fst ?w = _ |- _ => rewrite H; clear H end; try discriminate; try (destruct o; discriminate);
    repeat (apply Forall_app; split); repeat constructor; auto; repeat match goal with H : fst ?w = _ |- _ => rewrite H; clear H end; discriminate.
Qed.
Lemma leaf_plain es f ws : leaf_read es f ws -> Forall plain_word ws.
Proof.
  destruct f as [f|c]; [apply item_plain|]. intros (os & ew & ls & w & OR & (XR & _) & LR & _ & _ & ->). apply orders_plain in OR. apply orders_plain in LR. apply reads_plain in XR.
  apply Forall_app. split; [auto|]. do 3 (constructor; [split; discriminate|]). apply Forall_app. split; [auto|]. constructor; [split; discriminate|].
  apply Forall_app. split; [auto|]. repeat (constructor; [split; discriminate|]). constructor.
Qed.
Lemma label_plain es l ws : label_read es l ws -> Forall plain_word ws.
Proof. destruct 1; repeat (constructor; [split; discriminate|]); constructor. Qed.
Lemma progs_plain es : (forall pr ws, prog_read es pr ws -> Forall plain_word ws) /\ (forall cs ws, cases_read es cs ws -> Forall plain_word ws).
Proof.
  assert (IW : forall c cw tw, condition_read c cw -> Forall plain_word tw -> Forall plain_word (if_words cw tw)).
  { intros c cw tw (R & _) PT. apply reads_plain in R. unfold if_words. repeat (apply Forall_app; split); auto; repeat (constructor; [split; discriminate|]); constructor. }
  apply (read_ind es (fun _ ws _ => Forall plain_word ws) (fun _ ws _ => Forall plain_word ws)); intros; auto.
  - apply Forall_app. split; auto. eapply leaf_plain; eauto.
  - apply Forall_app. split; eauto.
  - apply Forall_app. split; [eauto|]. repeat (constructor; [split; discriminate|]). apply Forall_app. split; [auto|]. constructor; [split; discriminate|auto].
  - apply Forall_app. split; eauto. constructor; [split; discriminate|]. apply Forall_app. auto.
  - apply Forall_app. split; [|auto]. unfold switch_words. cbn [app]. repeat (constructor; [split; discriminate|]). apply Forall_app. split; [auto|]. repeat constructor; discriminate.
  - apply Forall_app. split; [eapply label_plain; eauto|]. repeat (constructor; [split; discriminate|]). apply Forall_app. split; [auto|]. constructor; [split; discriminate|auto].
  - apply Forall_app. split; [eapply label_plain; eauto|]. constructor; [split; discriminate|]. apply Forall_app. auto.
Qed.
Definition prog_plain es pr ws (R : prog_read es pr ws) := proj1 (progs_plain es) pr ws R.

(** ** What is well formed *)
Definition item_good (f : item) : Prop :=
  0x10 <= i_type f <= 0x1A /\ (i_const f <> None \/ i_range f <> None \/ i_members f <> None -> type_bytes (i_type f) <> None) /\
  (i_members f <> None -> i_const f = None) /\ match i_members f with Some l => lenN l < 2 ^ 16 | None => True end /\
  (forall c, i_const f = Some c -> in_type (i_type f) c) /\ (forall lo hi, i_range f = Some (lo, hi) -> in_type (i_type f) lo /\ in_type (i_type f) hi) /\
  (forall l, i_members f = Some l -> Forall (in_type (i_type f)) l).
Definition computed_good (c : computed) : Prop := (integral (c_expr c) /\ at_once (c_expr c) <= 8) /\ type_bytes (c_type c) <> None.
Definition leaf_good (f : leaf) : Prop := match f with Plain f => item_good f | Computed c => computed_good c end.
Fixpoint prog_good (p : prog) : Prop :=
  match p with
  | End => True
  | Field f r => leaf_good f /\ prog_good r
  | If c t e r => (integral c /\ at_once c <= 8) /\ prog_good t /\ prog_good e /\ prog_good r
  | Switch n cs r => NoDup (map (pattern 0x13) (labels cs)) /\ lenN (labels cs) < 2 ^ 16 /\ cases_good cs /\ prog_good r
  end
with cases_good (cs : cases) : Prop :=
  match cs with Stop => True | Case _ b more => prog_good b /\ cases_good more end.
Lemma members_in ty next l ws : members_read ty next l ws -> Forall (in_type ty) (map snd l).
Proof. induction 1; cbn [map]; constructor; auto. cbn. eapply writes_type; eauto. Qed.
Definition enum_good (e : enum) : Prop := type_bytes (m_type e) <> None /\ lenN (m_members e) < 2 ^ 16 /\ Forall (in_type (m_type e)) (map snd (m_members e)).
Lemma enums_good es ws : enums_read es ws -> Forall enum_good es.
Proof.
  induction 1 as [|e l ws wr ER R IH]; constructor; auto. pose proof (enum_type _ _ ER) as TB. destruct ER as (t & ms & _ & MR & _ & _ & LM & _).
  split; [exact TB|]. split; [exact LM|]. eapply members_in; eauto.
Qed.
Lemma item_is_good es f ws : Forall enum_good es -> item_read es f ws -> item_good f.
Proof.
  intros EG (ds & t & DR & TR & MC & _). apply decs_ok in DR. pose proof (proj1 (Forall_forall _ _) DR) as DK.
  assert (K1 : forall c, i_const f = Some c -> in_type (i_type f) c) by (intros c C; exact (DK _ (const_in _ _ C))).
  assert (K2 : forall lo hi, i_range f = Some (lo, hi) -> in_type (i_type f) lo /\ in_type (i_type f) hi) by (intros lo hi C; pose proof (DK _ (range_in _ _ _ C)) as D; cbn in D; tauto).
  assert (IT : forall z, in_type (i_type f) z -> type_bytes (i_type f) <> None) by (intros z; unfold in_type; destruct (type_bytes (i_type f)); [discriminate|tauto]).
  assert (KM : 0x10 <= i_type f <= 0x1A /\ (i_members f <> None -> type_bytes (i_type f) <> None) /\ match i_members f with Some l => lenN l < 2 ^ 16 | None => True end /\
    (forall l, i_members f = Some l -> Forall (in_type (i_type f)) l)).
  { inversion TR as [ty s I E1 E2|e I E1 E2].
    - apply type_facts in I. split; [apply I|]. split; [congruence|]. split; [exact Logic.I|discriminate].
    - destruct (proj1 (Forall_forall _ _) EG e I) as (G1 & G2 & G3). split.
      + destruct (type_bytes (m_type e)) as [n|] eqn:TB; [|congruence]. apply int_types in TB. cbn [In] in TB.
        decompose [or] TB; try contradiction; match goal with H : _ = _ |- _ => injection H as <- _ end; lia.
      + split; [auto|]. split; [unfold lenN in *; now rewrite map_length|]. intros l EL. injection EL as <-. exact G3. }
  destruct KM as (A & B & C & D). split; [exact A|]. split; [|auto 10].
  intros [K|[K|K]]; [|destruct (i_range f) as [(lo, hi)|] eqn:R; [|congruence]; eapply IT, K2; reflexivity|auto].
  destruct (i_const f) as [c|] eqn:R; [|congruence]. eapply IT, K1. reflexivity.
Qed.
Lemma leaf_is_good es f ws : Forall enum_good es -> leaf_read es f ws -> leaf_good f.
Proof.
  intros EG. destruct f as [f|c]; [now apply item_is_good|]. intros (os & ew & ls & w & _ & (_ & XR) & _ & _ & TB & _). split; auto.
Qed.
Lemma progs_good es : Forall enum_good es -> (forall pr ws, prog_read es pr ws -> prog_good pr) /\ (forall cs ws, cases_read es cs ws -> cases_good cs).
Proof.
  intros EG. apply (read_ind es (fun pr _ _ => prog_good pr) (fun cs _ _ => cases_good cs)); cbn [prog_good cases_good]; try tauto.
  - intros f p ws wr IR R IH. split; [eapply leaf_is_good; eauto|auto].
  - intros c t p cw tw wr (_ & C) T IT R IH. auto.
  - intros c t e p cw tw ew wr (_ & C) T IT R1 IE R IH. auto.
  - intros c t c' t' e' p cw tw ew wr (_ & C) T IT R1 IE R IH. split; [exact C|]. split; [exact IT|]. split; [exact IE|exact IH].
Qed.
Definition prog_is_good es pr ws (EG : Forall enum_good es) (R : prog_read es pr ws) := proj1 (progs_good es EG) pr ws R.

Definition sym_good (x : sym) : Prop := let '(op, ns, a) := x in
  op < 256 /\ wf_bytes a /\ args_fit op a = true /\ lenN ns = names_of op /\ ~ In op [0x39; 0x4C; 0x4D; 0x53; 0x65; 0x06] /\
  (op = 0x61 -> exists v, v < 256 /\ ~ In v [19; 23; 25] /\ a = v :: [0; 0; 0; 0; 0; 0; 0]).
Lemma ok_good x : sym_ok x -> sym_good x.
Proof.
  destruct x as [[op ns] a]. intros (A & B & C & D & E). split; [exact A|]. split; [exact B|]. split; [exact C|]. split; [exact D|]. cbn [In] in *. split; [intuition|].
  intros ->. intuition.
Qed.
Ltac good_sym := apply ok_good; easy_sym.
Lemma value_len ty z : type_bytes ty <> None -> lenN (int_bytes ty z) = value_bytes ty /\ ty < 256.
Proof.
  intros T. unfold int_bytes. rewrite lenN_bytes_of. destruct (type_bytes ty) as [n|] eqn:TB; [|congruence]. apply int_types in TB. cbn [In] in TB.
  decompose [or] TB; try contradiction; match goal with H : _ = _ |- _ => injection H as <- <- end; split; reflexivity.
Qed.
Lemma values_len ty l : type_bytes ty <> None -> lenN (flat_map (int_bytes ty) l) = lenN l * value_bytes ty.
Proof. intros T. induction l as [|z l IH]; [reflexivity|]. cbn [flat_map]. rewrite lenN_app, lenN_cons, IH, (proj1 (value_len ty z T)). lia. Qed.
Lemma wf_ints ty z : wf_bytes (int_bytes ty z). Proof. apply wf_bytes_of. Qed.
Lemma wf_flat {A} (f : A -> list N) l : (forall x, wf_bytes (f x)) -> wf_bytes (flat_map f l).
Proof. intros W. induction l as [|x l IH]; [constructor|]. cbn [flat_map]. apply Forall_app. split; [apply W|exact IH]. Qed.
Lemma item_syms f : item_good f -> Forall sym_good (item_sym f).
Proof.
  intros (TY & TB & MC & ML & _). unfold item_sym. repeat (apply Forall_app; split).
  - destruct (i_big f); constructor; [good_sym|constructor].
  - destruct (i_const f) as [c|] eqn:EC.
    + constructor; [|constructor]. assert (T : type_bytes (i_type f) <> None) by (apply TB; left; congruence). destruct (value_len _ c T) as (L & B).
      apply ok_good. split; [reflexivity|]. split; [constructor; [exact B|apply wf_ints]|]. split; [cbn [args_fit]; rewrite L; apply N.eqb_refl|]. split; [reflexivity|]. cbn. intuition discriminate.
    + constructor; [apply ok_good; now apply type_sym|]. destruct (i_members f) as [l|] eqn:EM; constructor; [|constructor].
      assert (T : type_bytes (i_type f) <> None) by (apply TB; right; right; congruence). destruct (value_len _ 0%Z T) as (_ & B).
      apply ok_good. split; [reflexivity|]. split; [constructor; [exact B|apply Forall_app; split; [apply wf_bytes_of|apply wf_flat; apply wf_ints]]|].
      split; [|split; [reflexivity|cbn; intuition discriminate]].
      unfold bytes_of. cbn [le_bytes app args_fit]. rewrite values_len by auto. change (2 ^ 16) with 65536 in ML. replace (lenN l mod 256 + 256 * (lenN l / 256 mod 256)) with (lenN l) by lia. apply N.eqb_refl.
  - destruct (i_range f) as [(lo, hi)|] eqn:ER; constructor; [|constructor].
    assert (T : type_bytes (i_type f) <> None) by (apply TB; right; left; congruence). destruct (value_len _ lo T) as (L1 & B). destruct (value_len _ hi T) as (L2 & _).
    apply ok_good. split; [reflexivity|]. split; [constructor; [exact B|apply Forall_app; split; apply wf_ints]|]. split; [|split; [reflexivity|cbn; intuition discriminate]].
    cbn [args_fit]. rewrite lenN_app, L1, L2. replace (value_bytes (i_type f) + value_bytes (i_type f)) with (2 * value_bytes (i_type f)) by lia. apply N.eqb_refl.
  - destruct (i_big f); constructor; [good_sym|constructor].
Qed.
Lemma cond_syms c : unspoilt c -> Forall sym_good (cond_sym c).
Proof.
  induction c; cbn [unspoilt cond_sym]; intros U; try contradiction.
  - constructor; [|constructor]. destruct U as (B & NI). split; [reflexivity|]. split; [apply wf_bytes_of|]. split; [reflexivity|]. split; [reflexivity|]. split; [cbn; intuition discriminate|].
    intros _. exists (Z.to_N v). split; [lia|]. split; [cbn [In] in *; lia|].
    assert (EV : ofZ 8 v = Z.to_N v) by (unfold ofZ; change (2 ^ Z.of_N (8 * 8))%Z with 18446744073709551616%Z; rewrite Z.mod_small by lia; reflexivity).
    rewrite EV. unfold bytes_of. cbn [le_bytes]. repeat f_equal; lia.
  - constructor; [good_sym|constructor].
  - destruct U as (A & B). apply Forall_app. split; [auto|]. apply Forall_app. split; [auto|]. constructor; [|constructor]. destruct o; good_sym.
  - apply Forall_app. split; [auto|]. constructor; [|constructor]. destruct o; good_sym.
Qed.
Lemma prog_syms pr : prog_good pr -> tame pr -> Forall sym_good (prog_sym pr).
Proof.
  induction pr as [|f r IH|c t IT e IE r IH|n cs r IH] using prog_ind; cbn [prog_good prog_sym tame]; intros G TM; [constructor| | |contradiction].
  - destruct G as (A & B). destruct f as [f|c]; [|contradiction]. apply Forall_app. split; [now apply item_syms|auto].
  - destruct G as (_ & B & C & D). destruct TM as (U & TB & TC & TD). apply Forall_app. split; [now apply cond_syms|]. constructor; [good_sym|]. apply Forall_app. split; [auto|]. constructor; [good_sym|].
    apply Forall_app. auto.
Qed.
(** All the code is bytes *)
Definition sym_wf (x : sym) : Prop := fst (fst x) < 256 /\ wf_bytes (snd x).
Lemma good_wf x : sym_good x -> sym_wf x.
Proof. destruct x as [[op ns] a]. intros (A & B & _). split; [exact A|exact B]. Qed.
Lemma goods_wf l : Forall sym_good l -> Forall sym_wf l.
Proof. apply Forall_impl. exact good_wf. Qed.
Lemma int_small ty : type_bytes ty <> None -> ty < 256.
Proof. intros T. apply (value_len ty 0%Z T). Qed.
Lemma cond_wf c : integral c -> Forall sym_wf (cond_sym c).
Proof.
  induction c; cbn [integral cond_sym]; intros U; try contradiction.
  - constructor; [|constructor]. split; [reflexivity|apply wf_bytes_of].
  - constructor; [|constructor]. split; [reflexivity|constructor].
  - destruct U as (A & B). apply Forall_app. split; [auto|]. apply Forall_app. split; [auto|]. constructor; [|constructor]. destruct o; (split; [reflexivity|constructor]).
  - apply Forall_app. split; [auto|]. constructor; [|constructor]. destruct o; (split; [reflexivity|constructor]).
Qed.
Lemma table_wf cs d : wf_bytes (table_code cs d).
Proof.
  unfold table_code. destruct (dense cs) as [(mn & mx)|].
  - rewrite !le8_bytes, le4_bytes. do 3 (apply wf_app; [apply wf_bytes_of|]). apply wf_flat. intros x. rewrite le4_bytes. apply wf_bytes_of.
  - rewrite le2_bytes, le4_bytes. do 2 (apply wf_app; [apply wf_bytes_of|]). apply wf_flat. intros x. rewrite le8_bytes, le4_bytes. apply wf_app; apply wf_bytes_of.
Qed.
Lemma bodies_wf l after : Forall (fun x => Forall sym_wf (snd x)) l -> Forall sym_wf (bodies_sym l after).
Proof.
  induction l as [|(o & c) l IH]; intros F; [constructor|]. cbn [bodies_sym]. apply Forall_app. split; [exact (Forall_inv F)|]. constructor; [split; [reflexivity|apply wf_bytes_of]|].
  apply IH. exact (Forall_inv_tail F).
Qed.
Lemma switch_wf n l : Forall (fun x => Forall sym_wf (snd x)) l -> Forall sym_wf (switch_sym n l).
Proof.
  intros F. unfold switch_sym. cbv zeta. constructor; [split; [|apply wf_bytes_of]|].
  - cbn [fst]. unfold switch_op. destruct (some _); reflexivity.
  - apply Forall_app. split; [now apply bodies_wf|]. constructor; [|constructor]. pose proof (table_wf (wrapped (real (fun _ => 0) l)) (default_used (real (fun _ => 0) l) (table_size (wrapped (real (fun _ => 0) l))))) as W.
    fold (switch_table (real (fun _ => 0) l)) in W. destruct (switch_table (real (fun _ => 0) l)) as [|b r]; [split; [reflexivity|constructor]|].
    split; [exact (Forall_inv W)|exact (Forall_inv_tail W)].
Qed.
Lemma leaf_wf f : leaf_good f -> Forall sym_wf (leaf_sym f).
Proof.
  destruct f as [f|c]; [intros G; now apply goods_wf, item_syms|]. intros ((I & _) & T). cbn [leaf_sym]. unfold computed_sym.
  apply Forall_app. split; [now apply cond_wf|]. apply Forall_app. split; [destruct (c_big c); repeat constructor|]. apply Forall_app. split; [|destruct (c_big c); repeat constructor].
  constructor; [repeat constructor|]. constructor; [repeat constructor|]. constructor; [|constructor]. split; [reflexivity|]. constructor; [now apply int_small|constructor].
Qed.
Lemma progs_wf : (forall pr, prog_good pr -> Forall sym_wf (prog_sym pr)) /\ (forall cs, cases_good cs -> Forall (fun x => Forall sym_wf (snd x)) (cases_sym cs)).
Proof.
  apply prog_cases_ind; cbn [prog_good cases_good prog_sym cases_sym].
  - constructor.
  - intros f r IH (A & B). apply Forall_app. split; [now apply leaf_wf|auto].
  - intros c t IT e IE r IH ((A & _) & B & C & D). apply Forall_app. split; [now apply cond_wf|]. constructor; [split; [reflexivity|apply wf_bytes_of]|]. apply Forall_app. split; [auto|].
    constructor; [split; [reflexivity|apply wf_bytes_of]|]. apply Forall_app. auto.
  - intros n cs IC r IH (_ & _ & A & B). apply Forall_app. split; [apply switch_wf; auto|auto].
  - constructor.
  - intros l b IB more IH (A & B). constructor; [exact (IB A)|auto].
Qed.
Lemma syms_wf id l : Forall sym_wf l -> wf_bytes (syms_code id l).
Proof.
  intros F. apply code_wf. apply Forall_forall. intros i I. apply in_map_iff in I as (x & <- & I). pose proof (proj1 (Forall_forall _ _) F x I) as (A & B).
  destruct x as [[op ns] a]. split; [exact A|exact B].
Qed.

(** ** Names *)
Definition sym_names (l : list sym) : list (list N) := flat_map (fun x => snd (fst x)) l.
Lemma names_app a b : sym_names (a ++ b) = sym_names a ++ sym_names b.
Proof. unfold sym_names. now rewrite flat_map_app. Qed.
Lemma item_names f : sym_names (item_sym f) = [i_name f].
Proof. unfold item_sym. destruct (i_big f), (i_const f), (i_members f), (i_range f) as [[]|]; reflexivity. Qed.
Lemma cond_names c : integral c -> sym_names (cond_sym c) = names c.
Proof.
  induction c; cbn [integral cond_sym names]; intros U; try contradiction; auto.
  - destruct U as (A & B). rewrite !names_app, IHc1, IHc2 by auto. cbn. now rewrite app_nil_r.
  - rewrite names_app, IHc by auto. cbn. now rewrite app_nil_r.
Qed.
Lemma leaf_sym_names f : leaf_good f -> sym_names (leaf_sym f) = leaf_names f.
Proof.
  destruct f as [f|c]; [intros _; apply item_names|]. intros ((I & _) & _). cbn [leaf_sym leaf_names]. unfold computed_sym. rewrite !names_app, cond_names by auto.
  f_equal. destruct (c_big c); reflexivity.
Qed.
Lemma bodies_names l after : sym_names (bodies_sym l after) = flat_map (fun x => sym_names (snd x)) l.
Proof. induction l as [|(o & c) l IH]; [reflexivity|]. cbn [bodies_sym flat_map snd]. rewrite !names_app, IH. reflexivity. Qed.
Lemma switch_names n l : sym_names (switch_sym n l) = n :: flat_map (fun x => sym_names (snd x)) l.
Proof. unfold switch_sym. cbv zeta. rewrite !names_app, bodies_names. cbn [sym_names flat_map fst snd app]. now rewrite app_nil_r. Qed.
Lemma progs_sym_names : (forall p, prog_good p -> sym_names (prog_sym p) = prog_names p) /\
  (forall cs, cases_good cs -> flat_map (fun x => sym_names (snd x)) (cases_sym cs) = case_names cs).
Proof.
  apply prog_cases_ind; cbn [prog_good cases_good prog_sym cases_sym prog_names case_names].
  - reflexivity.
  - intros f r IH (A & B). now rewrite names_app, leaf_sym_names, IH by auto.
  - intros c t IT e IE r IH ((A & _) & B & C & D). rewrite !names_app, cond_names, IT, IE, IH by auto. reflexivity.
  - intros n cs IC r IH (_ & _ & A & B). rewrite names_app, switch_names, IC, IH by auto. reflexivity.
  - reflexivity.
  - intros l b IB more IH (A & B). cbn [flat_map snd]. now rewrite IB, IH by auto.
Qed.
Definition prog_sym_names p (G : prog_good p) := proj1 progs_sym_names p G.
Definition source_sym (k : source) : list sym := map (fun b : bool => ((if b then 0x02 else 0x01), [], [])) (s_orders k) ++ body_sym k.
Lemma source_sym_names k n : prog_good (s_body k) -> In n (sym_names (source_sym k)) <-> In n (source_names k).
Proof.
  intros G. unfold source_sym, source_names, body_sym. rewrite names_app. cbn [sym_names flat_map fst snd app]. fold (sym_names (prog_sym (s_body k))). rewrite prog_sym_names by auto.
  assert (O : sym_names (map (fun b : bool => ((if b then 0x02 else 0x01), [], [])) (s_orders k)) = []) by (induction (s_orders k); auto).
  rewrite O. cbn [app In]. rewrite in_app_iff. cbn. tauto.
Qed.
Lemma compile_syms l T : Forall sym_good l -> Forall text T -> lenN T <= 65536 -> (forall n, In n T <-> In n (sym_names l)) -> T <> [] ->
  exists ns, NoDup ns /\ (forall n, In n ns <-> In n T) /\ optimize_strings T (syms_code (index_of T) l) = Some (ns, syms_code (index_of ns) l).
Proof.
  intros SO TT SL IN TN.
  assert (NT : Forall (fun x : sym => Forall (fun n => In n T) (snd (fst x))) l).
  { apply Forall_forall. intros x I. apply Forall_forall. intros n J. apply IN. apply in_flat_map. eauto. }
  assert (WF : Forall (well_formed T) (map (inst (index_of T)) l) /\ Forall optimiser_reads (map (inst (index_of T)) l)).
  { split; apply Forall_forall; intros i I; apply in_map_iff in I as (x & <- & I);
      pose proof (proj1 (Forall_forall _ _) SO x I) as O; pose proof (proj1 (Forall_forall _ _) NT x I) as Q; destruct x as [[op ns] a]; cbn [sym_good fst snd] in O, Q;
      destruct O as (O1 & O2 & O3 & O4 & O5 & O6).
    - split; [exact O1|]. split; [exact O2|]. split; [exact O3|]. cbn [inst ins refs opcode fst snd]. split; [unfold lenN in *; now rewrite map_length|].
      apply Forall_forall. intros z Z. apply in_map_iff in Z as (n & <- & J). pose proof (index_bound T n (proj1 (Forall_forall _ _) Q n J)). lia.
    - unfold optimiser_reads. cbn [inst ins opcode args fst snd]. cbn [In] in O5. split; [cbn [In]; intuition|]. split; [intuition|]. exact O6. }
  destruct WF as (WF & OP). destruct (optimize_spec T _ TT SL WF OP TN) as (ns & p' & EO & SI & ND' & RF).
  apply renumber in SI; auto. subst p'. exists ns. split; [exact ND'|]. split; [|exact EO].
  intros s. rewrite RF. split.
  - intros (i & kk & I & J & LK & EN). apply in_map_iff in I as (x & <- & I). cbn [inst ins refs] in J. apply in_map_iff in J as (n & <- & J).
    rewrite nth_index in EN by (exact (proj1 (Forall_forall _ _) (proj1 (Forall_forall _ _) NT x I) n J)). subst s. exact (proj1 (Forall_forall _ _) (proj1 (Forall_forall _ _) NT x I) n J).
  - intros IT. pose proof (proj1 (IN s) IT) as I. apply in_flat_map in I as (x & I & J). exists (inst (index_of T) x), (index_of T s).
    split; [now apply in_map|]. split; [cbn [inst ins refs]; now apply in_map|]. split; [now apply index_bound|now apply nth_index].
Qed.

(** ** The names are text *)
Definition word_texts (ws : list word) : Prop := forall s, In (TIdentifier, s) ws -> text s.
Lemma texts_app a b : word_texts (a ++ b) -> word_texts a /\ word_texts b.
Proof. intros W. split; intros s I; apply W; apply in_or_app; auto. Qed.
Lemma texts_cons a b : word_texts (a :: b) -> word_texts b.
Proof. intros W s I. apply W. now right. Qed.
Lemma members_text ty next l ws : members_read ty next l ws -> word_texts ws -> Forall text (map fst l).
Proof.
  induction 1 as [|next n c l ws IT LZ CM MR IH|next n u z c l ws WR LZ CM MR IH]; intros W; [constructor| |]; (constructor; [apply W; now left|]); apply IH.
  - apply texts_cons, texts_app in W. apply W.
  - do 3 apply texts_cons in W. apply texts_app in W. apply W.
Qed.
Lemma enums_text es ws : enums_read es ws -> word_texts ws -> Forall (fun e => Forall text (map fst (m_members e))) es.
Proof.
  induction 1 as [|e l ws wr (t & ms & _ & MR & _ & _ & _ & ->) R IH]; intros W; constructor; apply texts_app in W as (W & W'); auto.
  do 2 apply texts_cons in W. do 2 (apply texts_app in W as (_ & W)). apply texts_app in W as (W & _). eapply members_text; eauto.
Qed.
Lemma leaf_text es f ws : leaf_read es f ws -> word_texts ws -> text (leaf_name f) /\ Forall text (leaf_names f).
Proof.
  destruct f as [f|c].
  - intros (ds & t & _ & _ & _ & ->) W. apply texts_app in W as (_ & W). assert (X : text (i_name f)) by (apply W; right; now left). cbn [leaf_name leaf_names]. auto.
  - intros (os & ew & ls & w & _ & (XR & _) & _ & _ & _ & ->) W. do 5 (apply texts_app in W as (_ & W)). assert (X : text (c_name c)) by (apply W; right; now left).
    split; [exact X|]. cbn [leaf_names]. apply Forall_app. split; [eapply names_text; exact XR|auto].
Qed.
Lemma progs_text es : (forall pr ws, prog_read es pr ws -> word_texts ws -> Forall text (field_names pr) /\ Forall text (prog_names pr)) /\
  (forall cs ws, cases_read es cs ws -> word_texts ws -> Forall text (case_fields cs) /\ Forall text (case_names cs)).
Proof.
  assert (IW : forall c cw tw, condition_read c cw -> word_texts (if_words cw tw) -> Forall text (names c) /\ word_texts tw).
  { intros c cw tw (R & _) W. split; [eapply names_text; exact R|]. do 3 (apply texts_app in W as (_ & W)). now apply texts_app in W. }
  apply (read_ind es (fun pr ws _ => word_texts ws -> Forall text (field_names pr) /\ Forall text (prog_names pr))
    (fun cs ws _ => word_texts ws -> Forall text (case_fields cs) /\ Forall text (case_names cs))); cbn [field_names prog_names case_fields case_names].
  - auto.
  - intros f p ws wr IR R IH W. apply texts_app in W as (W & W'). destruct (IH W') as (A & B). destruct (leaf_text _ _ _ IR W) as (X & Y).
    split; [auto|]. apply Forall_app. auto.
  - intros c t p cw tw wr C T IT R IH W. apply texts_app in W as (W & W'). destruct (IH W') as (A & B). destruct (IW _ _ _ C W) as (X & W1). destruct (IT W1) as (A1 & B1).
    split; repeat (apply Forall_app; split); auto.
  - intros c t e p cw tw ew wr C T IT R1 IE R IH W. apply texts_app in W as (W & W'). destruct (IW _ _ _ C W) as (X & W1). destruct (IT W1) as (A1 & B1). apply texts_app in W' as (_ & W'). apply texts_app in W' as (W2 & W').
    apply texts_app in W' as (_ & W'). destruct (IE W2) as (A2 & B2). destruct (IH W') as (A & B). split; repeat (apply Forall_app; split); auto.
  - intros c t c' t' e' p cw tw ew wr C T IT R1 IE R IH W. apply texts_app in W as (W & W'). destruct (IW _ _ _ C W) as (X & W1). destruct (IT W1) as (A1 & B1). apply texts_cons in W'. apply texts_app in W' as (W2 & W').
    destruct (IE W2) as (A2 & B2). destruct (IH W') as (A & B). split; (apply Forall_app; split; [auto|apply Forall_app; split; auto]).
    apply Forall_app; split; auto.
  - intros n cs p cw wr CR IC NL LL R IH W. apply texts_app in W as (W & W'). destruct (IH W') as (A & B).
    assert (X : text n) by (apply W; right; right; now left). unfold switch_words in W. do 5 apply texts_cons in W. apply texts_app in W as (W & _). destruct (IC W) as (A1 & B1).
    split; [apply Forall_app; auto|]. constructor; [auto|apply Forall_app; auto].
  - auto.
  - intros l b more lw bw mw LR PR IB CR IC W. apply texts_app in W as (_ & W). apply texts_app in W as (_ & W). apply texts_app in W as (W1 & W). apply texts_app in W as (_ & W2).
    destruct (IB W1), (IC W2). split; apply Forall_app; auto.
  - intros l b more lw bw mw LR PR IB SI CR IC W. apply texts_app in W as (_ & W). apply texts_app in W as (_ & W). apply texts_app in W as (W1 & W2).
    destruct (IB W1), (IC W2). split; apply Forall_app; auto.
Qed.
Definition prog_text es pr ws (R : prog_read es pr ws) := proj1 (progs_text es) pr ws R.

(** ** The file *)
Lemma enums_nodup es ws : enums_read es ws -> Forall (fun e => NoDup (map fst (m_members e))) es.
Proof. induction 1 as [|e l ws wr (t & ms & _ & _ & ND & _) R IH]; constructor; auto. Qed.
Lemma source_run E k ws : source_read k ws -> word_texts ws -> NoDup (field_names (s_body k)) -> NoDup (s_name k :: map m_name (s_enums k)) ->
  Forall (fun e => ~ In (m_name e) (map (fun w => chars (snd w)) type_words)) (s_enums k) -> forall path src toks,
  lex src = Some toks -> map word_of toks = ws ++ [(TEof, [])] -> lenN (table [] (source_names k)) <= 65536 ->
  let T := table [] (source_names k) in
  exists n, forall fuel, (n <= fuel)%nat ->
  exists p, parse_file E fuel path src = POk tt p /\ p_err p = false /\ p_strs p = T /\ p_out p = syms_code (index_of T) (source_sym k).
Proof.
  intros (ew & os & fw & EW & OR & BR & ->) WT NF NN NW path src toks LX M SL T. unfold parse_file. rewrite LX.
  rewrite <- !app_assoc in M. apply map_eq_app in M as (t0 & tt1 & -> & M0 & M). apply map_eq_app in M as (t1 & tt2 & -> & M1 & M). cbn [app] in M. one_token. one_token. one_token.
  apply map_eq_app in M as (ft & tt3 & -> & M2 & M). one_token. one_token. one_token.
  rename t into kw, t2 into nt, t3 into lb, t4 into rb, t5 into e.
  assert (P0 : Forall plain t0) by (apply plain_words; rewrite M0; eapply enums_plain; eauto).
  assert (P1 : Forall plain t1) by (apply plain_words; rewrite M1; eapply orders_plain; eauto).
  assert (P2 : Forall plain ft) by (apply plain_words; rewrite M2; eapply prog_plain; eauto).
  assert (PK : plain kw) by (split; rewrite (word_kind _ _ _ W); discriminate).
  assert (PN : plain nt) by (split; rewrite (word_kind _ _ _ W0); discriminate).
  assert (PL : plain lb) by (split; rewrite (word_kind _ _ _ W1); discriminate).
  apply texts_app in WT as (WE & WT). apply texts_app in WT as (_ & WT). do 3 apply texts_cons in WT. cbn [app] in WT. apply texts_app in WT as (WB & _).
  destruct (prog_text _ _ _ BR WB) as (FF & FT). pose proof (enums_text _ _ EW WE) as ET.
  apply NoDup_cons_iff in NN as (NI & NE).
  assert (EO : enums_ok (s_enums k)).
  { split; [exact NE|]. split; [|split; [exact NW|exact (enums_nodup _ _ EW)]]. eapply Forall_impl; [|eapply enums_good; eauto]. intros q Q. apply Q. }
  set (rest := nt :: lb :: ft ++ [rb; e]) in *.
  assert (exists z zs, t1 ++ kw :: rest = z :: zs /\ plain z /\ (tk z = TAt \/ tk z = TPacket)) as (z & zs & EZ & PZ & KZ).
  { destruct t1 as [|z zs]; [exists kw, rest|exists z, (zs ++ kw :: rest)]; (split; [reflexivity|]); (split; [auto; exact (Forall_inv P1)|]).
    - right. exact (word_kind _ _ _ W).
    - left. pose proof (order_at _ _ _ OR) as K. rewrite <- M1 in K. exact K. }
  rewrite EZ. destruct (next_of t0 z zs ltac:(apply Forall_app; auto)) as (h & hs & EH & PH). rewrite EH.
  set (p0 := parser0 path (h :: hs)).
  assert (A : advance p0 = POk tt (going p0 h hs token0 [] [])).
  { change p0 with (going p0 token0 (h :: hs) token0 [] []) at 1. now apply advance_going. }
  destruct (enums_run E _ _ EW t0 p0 h hs token0 [] [] z zs [] M0 (eq_sym EH)) as (ww & ERUN); auto; [apply Forall_app; auto|].
  set (p1 := noted ww (set_defs [] (map edef ([] ++ s_enums k)) p0)).
  destruct (body_run E k fw BR EO ft (set_packets 1 p1) nt lb rb e kw (code (order_code (s_orders k))) [] M2 W0 (word_kind _ _ _ W1) (word_kind _ _ _ W2) (word_kind _ _ _ W3) P2) as (n & BK).
  { split; [reflexivity|]. split; [reflexivity|]. split; [reflexivity|]. reflexivity. } { exact NF. } { exact NI. } { exact FF. } { exact FT. } { constructor. } { exact SL. }
  fold T in BK.
  exists (length (s_enums k) + S (n + length t0 + length (s_orders k) + 2))%nat. intros fuel L.
  rewrite (bind_ok advance _ _ tt _ A).
  replace fuel with (length (s_enums k) + S (S (S (fuel - length (s_enums k) - 3))))%nat by lia. set (f := (fuel - length (s_enums k) - 3)%nat) in *.
  rewrite ERUN by (subst f; lia).
  fold p1. cbn [top_level]. rewrite bind_cur, bind_get.
  match goal with |- context [p_err (going p1 ?a ?b ?c ?d ?e)] => change (p_err (going p1 a b c d e)) with false end. rewrite !is_kind_false by (destruct KZ as [-> | ->]; discriminate). cbn [orb].
  rewrite (bind_ok (top_decorators E (S (S f))) _ _ tt (going p1 kw rest (last t1 (last t0 token0)) ([] ++ code (order_code (s_orders k))) [])).
  2:{ apply (top_orders_run E _ os OR); auto; [apply Forall_app; auto|rewrite (word_kind _ _ _ W); discriminate|subst f; lia]. }
  rewrite bind_get. cbv beta. match goal with |- context [p_cur (going p1 ?a ?b ?c ?d ?e)] => change (p_cur (going p1 a b c d e)) with a end.
  rewrite (word_kind _ _ _ W). cbv iota. rewrite bind_bind, bind_get.
  match goal with |- context [p_packets (going p1 ?a ?b ?c ?d ?e)] => change (p_packets (going p1 a b c d e)) with 0 end. change (0 <? 0) with false. rewrite bind_bind, bind_when.
  rewrite bind_bind. unfold upd_p. unfold pbind at 1.
  match goal with |- context [pbind _ _ ?q = _] => change q with (going (set_packets 1 p1) kw rest (last t1 (last t0 token0)) (code (order_code (s_orders k))) []) end.
  rewrite bind_bind. unfold rest. rewrite bind_adv by auto.
  rewrite (bind_ok (parse_packet E (S (S f))) _ _ tt _ (BK (S (S f)) ltac:(subst f; lia))).
  rewrite bind_cur, bind_get. rewrite is_kind_true by exact (word_kind _ _ _ W3). cbn [orb].
  rewrite bind_get. match goal with |- context [when ?b error ?q] => change (when b error q) with (POk tt q) end.
  eexists. split; [reflexivity|]. split; [reflexivity|]. split; [reflexivity|].
  unfold source_sym. rewrite syms_app. match goal with |- p_out (going _ _ _ _ ?o _) = _ => change (o = syms_code (index_of T) (map (fun b : bool => ((if b then 2 else 1), [], [])) (s_orders k)) ++ syms_code (index_of T) (body_sym k)) end.
  f_equal. unfold order_code, syms_code. now rewrite map_map.
Qed.

Lemma held_texts E path k toks : holds_source E path k toks -> forall src ws, e_read E (e_canon E path) = Some src -> lex src = Some toks ->
  map word_of toks = ws ++ [(TEof, [])] -> word_texts ws.
Proof.
  intros _ src ws RD LX M s I.
  assert (T : tokens_of 0 src toks).
  { destruct (lex_from_spec (Datatypes.S (length src)) src 0 1 ltac:(lia)) as (ts & L & T). unfold lex in LX. rewrite L in LX. injection LX as <-. exact T. }
  apply alnum_text, (token_names _ _ _ T). rewrite M. apply in_or_app. now left.
Qed.
Lemma table_small ns : forall t, lenN (table t ns) <= lenN t + lenN ns.
Proof.
  induction ns as [|n r IH]; intros t; [change (table t []) with t; lia|]. specialize (IH (table1 t n)). change (table t (n :: r)) with (table (table1 t n) r).
  rewrite lenN_cons. unfold table1 at 2, strtab_add in IH. destruct strtab_find; cbn [fst] in IH; [lia|]. rewrite lenN_app in IH. change (lenN [n]) with 1 in IH. lia.
Qed.
Lemma source_good k ws : source_read k ws -> prog_good (s_body k).
Proof. intros (ew & os & fw & EW & OR & BR & ->). exact (prog_is_good _ _ _ (enums_good _ _ EW) BR). Qed.
Lemma source_tame k : prog_good (s_body k) -> tame (s_body k) -> Forall sym_good (source_sym k).
Proof.
  intros PG TM. unfold source_sym. apply Forall_app. split.
  - apply Forall_forall. intros x I. apply in_map_iff in I as (b & <- & _). destruct b; good_sym.
  - constructor; [good_sym|]. now apply prog_syms.
Qed.
Lemma source_wf k : prog_good (s_body k) -> Forall sym_wf (source_sym k).
Proof.
  intros PG. unfold source_sym. apply Forall_app. split.
  - apply Forall_forall. intros x I. apply in_map_iff in I as (b & <- & _). destruct b; repeat constructor.
  - constructor; [repeat constructor|]. now apply progs_wf.
Qed.
Lemma source_text E path k toks : holds_source E path k toks -> Forall text (source_names k).
Proof.
  intros HS. pose proof HS as (src & ws & RD & LX & M & SR & _). pose proof (held_texts _ _ _ _ HS src ws RD LX M) as WT.
  destruct SR as (ew & os & fw & EW & OR & BR & ->). apply texts_app in WT as (_ & WT). apply texts_app in WT as (_ & WT). unfold source_names. apply Forall_app. split.
  - do 3 apply texts_cons in WT. cbn [app] in WT. apply texts_app in WT as (WB & _). now apply (prog_text _ _ _ BR).
  - constructor; [|constructor]. apply WT. right. now left.
Qed.
Lemma held_table E path k toks : holds_source E path k toks -> lenN (source_names k) <= 65536 -> let T := table [] (source_names k) in
  lenN T <= 65536 /\ (forall s, In s T <-> In s (source_names k)) /\ T <> [] /\ Forall text T /\ prog_good (s_body k) /\
  exists m, forall fuel, (m <= fuel)%nat -> exists p, compile_file E fuel path = match optimize_strings T (syms_code (index_of T) (source_sym k)) with
    | Some (ns, bc) => CImage (image ns bc) | None => p end.
Proof.
  intros HS LN T. pose proof (source_text _ _ _ _ HS) as TX. pose proof HS as (src & ws & RD & LX & M & SR & NF & NN & NW).
  pose proof (held_texts _ _ _ _ HS src ws RD LX M) as WT. pose proof (source_good _ _ SR) as PG.
  assert (SL : lenN T <= 65536) by (pose proof (table_small (source_names k) []) as G; rewrite lenN_nil in G; unfold T; lia).
  assert (IN : forall s, In s T <-> In s (source_names k)).
  { intros s. split; [intros I; apply table_sub in I as [[]|I]; auto|intros I; apply table_in; auto]. }
  assert (TN : T <> []). { intros E0. assert (I : In (s_name k) T) by (apply IN; unfold source_names; apply in_or_app; right; left; auto). rewrite E0 in I. destruct I. }
  split; [exact SL|]. split; [exact IN|]. split; [exact TN|]. split; [apply table_text; auto|]. split; [exact PG|].
  destruct (source_run E k ws SR WT NF NN NW (e_canon E path) src toks LX M SL) as (m & K).
  exists m. intros fuel L. unfold compile_file. rewrite RD. destruct (K fuel L) as (p & -> & -> & -> & ->). eexists. reflexivity.
Qed.
Lemma compile_source E path k toks : holds_source E path k toks -> tame (s_body k) -> lenN (source_names k) <= 65536 ->
  exists ns, NoDup ns /\ (forall n, In n ns <-> In n (source_names k)) /\
    exists m, forall fuel, (m <= fuel)%nat -> compile_file E fuel path = CImage (image ns (syms_code (index_of ns) (source_sym k))).
Proof.
  intros HS TM LN. destruct (held_table _ _ _ _ HS LN) as (SL & IN & TN & TT & PG & m & K).
  destruct (compile_syms (source_sym k) (table [] (source_names k)) (source_tame _ PG TM)) as (ns & ND & RF & EO); auto; [intros n; rewrite IN; symmetry; now apply source_sym_names|].
  exists ns. split; [exact ND|]. split; [intros n; now rewrite RF|]. exists m. intros fuel L. destruct (K fuel L) as (p & ->). now rewrite EO.
Qed.
Lemma table1_nodup t n : Forall text t -> NoDup t -> NoDup (table1 t n).
Proof.
  intros F ND. rewrite table1_eq by auto. destruct in_dec as [I|I]; [auto|]. apply NoDup_Add with (a := n) (l := t); [|auto].
  replace t with (t ++ []) at 1 by apply app_nil_r. apply Add_app.
Qed.
Lemma table_nodup ns : forall t, Forall text t -> Forall text ns -> NoDup t -> NoDup (table t ns).
Proof. induction ns as [|n r IH]; intros t F G ND; cbn; auto. pose proof (Forall_inv G). pose proof (Forall_inv_tail G). apply IH; auto; [now apply table1_text|now apply table1_nodup]. Qed.
Lemma build_sub strs : forall used tab, Forall text strs -> Forall text tab -> NoDup tab ->
  let r := fst (build_map strs used tab) in NoDup r /\ Forall text r /\ incl r (tab ++ strs).
Proof.
  induction strs as [|s strs IH]; intros used tab F T ND; cbn [build_map].
  { cbn [fst]. rewrite app_nil_r. split; [auto|]. split; [auto|]. apply incl_refl. }
  destruct used as [|u used]; [cbn [fst]; split; [auto|]; split; [auto|]; apply incl_appl, incl_refl|]. pose proof (Forall_inv F) as TS. pose proof (Forall_inv_tail F) as TR. destruct u.
  - rewrite cstr_text by auto. pose proof (table1_nodup tab s T ND) as N1. pose proof (table1_text tab s T TS) as T1. pose proof (table1_eq tab s T) as E1. unfold table1 in N1, T1, E1.
    destruct (strtab_add tab s) as [tab1 id]. cbn [fst] in *. destruct (IH used tab1 TR T1 N1) as (A & B & C). destruct (build_map strs used tab1). cbn [fst] in *.
    split; [auto|]. split; [auto|]. intros x I. apply C in I. apply in_app_iff in I as [I|I]; [|apply in_or_app; right; right; exact I].
    apply in_or_app. subst tab1. destruct in_dec; [auto|]. apply in_app_iff in I as [I|[<-|[]]]; [auto|right; now left].
  - destruct (IH used tab TR T ND) as (A & B & C). destruct (build_map strs used tab). cbn [fst] in *. split; [auto|]. split; [auto|]. intros x I. apply C in I. apply in_app_iff in I as [I|I]; apply in_or_app; [now left|right; now right].
Qed.
Lemma optimize_sub strs bc strs' bc' : Forall text strs -> NoDup strs -> optimize_strings strs bc = Some (strs', bc') -> NoDup strs' /\ Forall text strs' /\ incl strs' strs.
Proof.
  intros F ND. unfold optimize_strings. destruct (lenN strs =? 0); [intros [= <- <-]; split; [auto|split; [auto|apply incl_refl]]|].
  destruct mark as [used|]; [|discriminate]. pose proof (build_sub strs used [] F ltac:(constructor) ltac:(constructor)) as B. destruct (build_map strs used []) as [tab m]. cbn [fst] in B.
  destruct remap; [|discriminate]. intros [= <- <-]. exact B.
Qed.
Lemma compile_whole E path k toks : holds_source E path k toks -> lenN (source_names k) <= 65536 ->
  exists ns bc, NoDup ns /\ Forall text ns /\ incl ns (source_names k) /\ (incl (source_names k) ns -> bc = syms_code (index_of ns) (source_sym k)) /\
    exists m, forall fuel, (m <= fuel)%nat -> compile_file E fuel path = CImage (image ns bc).
Proof.
  intros HS LN. destruct (held_table _ _ _ _ HS LN) as (SL & IN & TN & TT & PG & m & K). pose proof (source_text _ _ _ _ HS) as TX.
  pose proof (table_nodup (source_names k) [] ltac:(constructor) TX ltac:(constructor)) as NT. set (T := table [] (source_names k)) in *.
  pose proof (syms_wf (index_of T) _ (source_wf k PG)) as WB.
  destruct (optimize_strings T (syms_code (index_of T) (source_sym k))) as [(ns & bc)|] eqn:EO; [|now apply LemEnds.optimize_some in EO].
  destruct (optimize_sub _ _ _ _ TT NT EO) as (A & B & C).
  exists ns, bc. split; [exact A|]. split; [exact B|]. split; [intros x I; apply IN, C, I|]. split.
  - intros I. destruct (nothing_lost T _ ns bc TT NT SL WB EO) as (-> & ->); [intros x J; apply I, IN, J|reflexivity].
  - exists m. intros fuel L. now destruct (K fuel L) as (p & ->).
Qed.
