(** The fields of a structure that the editor knows. *)
From Coq Require Import Strings.String ZArith Lia ZifyBool ZifyNat ZifyN.
From Verif Require LemNestFile LemOffers LemComplete LemPlace.
From Verif Require Import SpecDiag ModelDiag ModelComplete SpecComplete.
From Verif Require Import Base SpecBytes SpecVM ModelVM ModelImage SpecImage LemImage ModelText SpecText LemLex ModelNames ModelParse ModelSchema SpecParse LemBase LemStr LemText
  LemParse SpecNames LemNames SpecPacket LemPacket LemAccept SpecMessage SpecArrays LemArrays.
Local Open Scope N_scope.

#[local] Notation strs := (flat_map item_names).

(** ** The names in the code *)
Definition keyed_sym (x : sym) : Prop := exists op n a, x = (op, [n], a) /\ ModelComplete.keyed op = Some (length a) /\ op <> 0x03.
Definition bare_sym (x : sym) : Prop := exists op, x = (op, [], []) /\ In op [0x01; 0x02; 0x38].
Definition sym_fields (x : sym) : list (list N) := snd (fst x).
Lemma nth_error_index t n : In n t -> nth_error t (N.to_nat (index_of t n)) = Some n.
Proof.
  intros I. pose proof (index_bound t n I) as B. destruct (nth_error t (N.to_nat (index_of t n))) as [m|] eqn:E.
  - apply nth_error_nth with (d := []) in E. rewrite nth_index in E by exact I. now subst.
  - apply nth_error_None in E. unfold lenN in B. lia.
Qed.
Lemma one_sym T x fuel r : Forall text T -> lenN T <= 65536 -> keyed_sym x \/ bare_sym x -> (forall n, In n (sym_fields x) -> In n T) ->
  code_fields T (S fuel) (instr_bytes (inst (index_of T) x) ++ r) = sym_fields x ++ code_fields T fuel r.
Proof.
  intros TX TL [(op & n & a & -> & K & N3)|(op & -> & I)] IN.
  - pose proof (index_bound T n (IN n (or_introl eq_refl))) as B. unfold instr_bytes. cbn [inst ins opcode refs args fst snd map flat_map app sym_fields].
    rewrite app_nil_r. cbn [code_fields]. rewrite K. rewrite <- app_assoc.
    assert (TK : take_u16 (le_bytes 2 (index_of T n) ++ a ++ r) = (index_of T n, a ++ r)).
    { cbn [le_bytes app take_u16]. f_equal. clear - B TL. pose proof (N.div_mod (index_of T n) 256). pose proof (N.mod_small (index_of T n / 256) 256).
      assert (index_of T n / 256 < 256) by (apply N.div_lt_upper_bound; lia). lia. }
    rewrite TK. rewrite nth_error_index by (apply IN; now left). destruct (N.eqb_spec op 3); [contradiction|].
    rewrite cstr_text by (apply (proj1 (Forall_forall _ _) TX), IN; now left). f_equal. f_equal.
    rewrite skipn_app, skipn_all, Nat.sub_diag. reflexivity.
  - cbn [In] in I. destruct I as [<-|[<-|[<-|[]]]]; reflexivity.
Qed.
Lemma many_syms T l : Forall text T -> lenN T <= 65536 -> Forall (fun x => keyed_sym x \/ bare_sym x) l -> (forall n, In n (flat_map sym_fields l) -> In n T) ->
  forall fuel r, code_fields T (length l + fuel) (code (map (inst (index_of T)) l) ++ r) = flat_map sym_fields l ++ code_fields T fuel r.
Proof.
  intros TX TL. induction 1 as [|x l K F IH]; intros IN fuel r; [reflexivity|]. cbn [length Nat.add map flat_map]. cbn [code flat_map].
  rewrite <- app_assoc. rewrite one_sym; auto.
  - rewrite <- app_assoc. f_equal. apply IH. intros n I. apply IN. cbn [flat_map]. apply in_or_app. now right.
  - intros n I. apply IN. cbn [flat_map]. apply in_or_app. now left.
Qed.
Lemma syms_short id l : (length l <= length (code (map (inst id) l)))%nat.
Proof. unfold code. induction l as [|x l IH]; [cbn; lia|]. cbn [map flat_map length]. rewrite app_length. unfold instr_bytes at 1. cbn [length]. lia. Qed.
Lemma plain_syms i ws : item_read i ws -> (exists c, i_what i = Plain c) -> Forall (fun x => keyed_sym x \/ bare_sym x) (item_sym i) /\ In (i_name i) (flat_map sym_fields (item_sym i)) /\
  forall n, In n (flat_map sym_fields (item_sym i)) -> n = i_name i.
Proof.
  assert (TW : forall ty s n, In (ty, s) type_words -> keyed_sym (ty, [n], [])).
  { intros ty s n I. exists ty, n, []. split; [reflexivity|]. cbn in I. repeat (destruct I as [I|I]; [injection I as <- _; split; [reflexivity|discriminate]|]). destruct I. }
  assert (B1 : forall op, In op [0x01; 0x02; 0x38] -> bare_sym (op, [], [])) by (intros op I; exists op; auto).
  intros [l c n ws' FR|l1 l2 os1 os2 cw ref ty sw n OR1 OR2 IC IT|l1 l2 os1 os2 ty sw n OR1 OR2 IT] (c' & EC); [|discriminate|discriminate].
  assert (CS : Forall (fun x => keyed_sym x \/ bare_sym x) (content_sym c n) /\ In n (flat_map sym_fields (content_sym c n)) /\ forall m, In m (flat_map sym_fields (content_sym c n)) -> m = n).
  { destruct FR as (os & x & y & _ & CR & _). cbn [f_content] in CR. split; [|split].
    - assert (KC : forall w cw, In (w, cw) counter_words -> keyed_sym (array_op w, [n], []) /\ keyed_sym (string_op w, [n], [])).
      { intros w cw I. cbn in I. repeat (destruct I as [I|I]; [injection I as <- _; split; eexists _, _, _; (split; [reflexivity|]); (split; [reflexivity|discriminate])|]). destruct I. }
      assert (K4 : forall m, keyed_sym (0x34, [n], bytes_of LE 4 m)) by (intros m; eexists _, _, _; split; [reflexivity|]; split; [reflexivity|discriminate]).
      assert (K0 : forall m, keyed_sym (0x30, [n], bytes_of LE 2 m)) by (intros m; eexists _, _, _; split; [reflexivity|]; split; [reflexivity|discriminate]).
      assert (E8 : bare_sym (0x38, [], [])) by (apply B1; cbn; tauto).
      destruct CR; cbn [content_sym]; repeat apply Forall_cons; try apply Forall_nil; try (left; eauto; fail); try (right; exact E8); left; eapply KC; eauto.
    - destruct c as [ty [|m|w]|m|w]; left; reflexivity.
    - destruct c as [ty [|m|w]|m|w]; cbn; intuition. }
  destruct CS as (C1 & C2 & C3). unfold item_sym. cbn [i_what i_name]. split; [|split].
  - apply Forall_app. split; [destruct (i_big _); repeat apply Forall_cons; try apply Forall_nil; right; apply B1; cbn; tauto|]. apply Forall_app. split; [exact C1|].
    destruct (i_big _); repeat apply Forall_cons; try apply Forall_nil; right; apply B1; cbn; tauto.
  - rewrite !flat_map_app. apply in_or_app. right. apply in_or_app. now left.
  - intros m I. rewrite !flat_map_app in I. apply in_app_iff in I as [I|I]; [destruct (i_big _) in I; destruct I|]. apply in_app_iff in I as [I|I]; [now apply C3|].
    destruct (i_big _) in I; destruct I.
Qed.

(** ** The items of a structure *)
Lemma items_go E is ws : items_read is ws -> forall fuel ts p y x pv o s t r,
  map word_of ts = ws -> y :: x = ts ++ t :: r -> Forall plain (ts ++ [t]) -> tk t = TRbrace -> (length ts < fuel)%nat ->
  p_err p = false -> p_bitmode p = false -> plain_types p -> p_enums p = [] -> NoDup (p_fields p ++ map i_name is) ->
  Forall text (p_fields p ++ map i_name is) -> Forall text s -> Forall text (strs is) -> lenN (LemParse.table s (strs is)) <= 65536 ->
  block_loop E fuel (going p y x pv o s) =
  POk tt (going (set_struct (p_sname p) (p_fields p ++ map i_name is) p) t r (last ts pv)
    (o ++ code (flat_map (item_instrs (index_of (LemParse.table s (strs is)))) is)) (LemParse.table s (strs is))).
Proof.
  induction 1 as [|i is ws wr IR R IH]; intros fuel ts p y x pv o s t r M X P KT L ER BM PS PE ND FT ST TI SL; (destruct fuel as [|fuel]; [lia|]).
  - destruct ts; [|discriminate]. injection X as -> ->. cbn [block_loop]. rewrite bind_cur. rewrite is_kind_true by auto. cbn. rewrite !app_nil_r.
    destruct p. reflexivity.
  - apply map_eq_app in M as (t1 & t2 & -> & M1 & M2). pose proof (item_len _ _ IR) as FL. rewrite <- M1, map_length in FL.
    destruct (item_head _ _ IR) as (w & wt & EW & KW). rewrite app_length in L.
    assert (KY : tk y = TAt \/ tk y = TIdentifier).
    { destruct t1 as [|z t1]; [rewrite EW in M1; discriminate M1|]. injection X as -> _. rewrite EW in M1. apply cons_inv in M1 as (<- & _). exact KW. }
    cbn [block_loop]. rewrite bind_cur, bind_get. change (p_err (going p y x pv o s)) with (p_err p). rewrite ER.
    rewrite !is_kind_false by (destruct KY as [-> | ->]; discriminate). cbn [orb].
    cbn [map flat_map] in ND, FT, SL, TI |- *. apply Forall_app in TI as (TI1 & TI2).
    set (s1 := LemParse.table s (item_names i)). set (T := LemParse.table s (item_names i ++ strs is)) in *.
    assert (ET : T = LemParse.table s1 (strs is)) by apply table_two.
    assert (SL1 : lenN s1 <= 65536) by (pose proof (LemParse.table_len s1 (strs is)); rewrite ET in SL; lia).
    assert (FTP : Forall text (p_fields p)) by (apply Forall_app in FT as (FT & _); exact FT).
    assert (NI : ~ In (i_name i) (p_fields p)) by (intros I; apply NoDup_remove_2 in ND; apply ND; apply in_or_app; auto).
    assert (S1T : Forall text s1) by (apply table_text; auto).
    assert (exists h hs, t2 ++ t :: r = h :: hs /\ (t2 = [] -> h = t) /\ plain h /\ Forall plain (t1 ++ [h])) as (h & hs & EH & _ & PH & PT1).
    { rewrite <- app_assoc in P. apply Forall_app in P as (A & B).
      destruct t2 as [|h hs]; [exists t, r|exists h, (hs ++ t :: r)]; (split; [reflexivity|]); (split; [auto; discriminate|]); pose proof (Forall_inv B) as PH; (split; [exact PH|]);
      apply Forall_app; split; auto. }
    destruct fuel as [|fuel]; [lia|].
    rewrite (bind_ok (parse_field E (S fuel)) _ _ tt (going (set_struct (p_sname p) (p_fields p ++ [i_name i]) p) h hs (last t1 pv)
      (o ++ code (item_instrs (index_of s1) i)) s1)).
    + rewrite (IH (S fuel) t2 (set_struct (p_sname p) (p_fields p ++ [i_name i]) p) h hs _ _ _ t r); auto.
      * f_equal. cbn [p_sname p_fields set_struct]. rewrite <- !app_assoc. cbn [app]. rewrite last_two. rewrite <- ET.
        cbn [flat_map]. unfold code at 2 3. rewrite flat_map_app. fold (code (item_instrs (index_of T) i)).
        rewrite (item_ext (index_of s1) (index_of T)); [reflexivity|]. intros n I.
        destruct (table_app (strs is) s1) as (q & Eq). rewrite ET, Eq. symmetry. apply index_in. apply table_in; auto.
      * rewrite <- app_assoc in P. apply Forall_app in P. apply P.
      * lia.
      * cbn [p_fields set_struct]. rewrite <- app_assoc. exact ND.
      * cbn [p_fields set_struct]. rewrite <- app_assoc. exact FT.
      * rewrite <- ET. exact SL.
    + apply (item_run E i ws IR); auto; [now rewrite X, <- app_assoc, EH|lia].
Qed.


(** ** A file of one structure *)
Lemma struct_analysed E is ws : items_read is ws -> forall fuel path src toks s,
  lex src = Some toks -> map word_of toks = [sign TStruct "struct"; (TIdentifier, s); sign TLbrace "{"] ++ ws ++ [sign TRbrace "}"] ++ [(TEof, [])] ->
  NoDup (map i_name is) -> ~ In s SpecNest.type_names -> Forall text (strs is) -> lenN (LemParse.table [] (strs is)) <= 65536 -> (length toks < fuel)%nat ->
  let T := LemParse.table [] (strs is) in
  exists p, analyse E fuel path src = POk tt p /\ p_strs p = T /\ p_structs p = [(s, code (flat_map (item_instrs (index_of T)) is))] /\ p_enums p = [] /\ (length (p_errs p) <= 1)%nat.
Proof.
  intros R fuel path src toks s LX M ND NT TX SL L T. unfold analyse. rewrite LX. cbn [app] in M. one_token. one_token. one_token.
  apply map_eq_app in M as (ts & tt2 & -> & M2 & M). one_token. one_token. one_token.
  rename t into kw, t0 into nt, t1 into lb, t2 into rb, t3 into e.
  assert (P : Forall plain ts) by (apply plain_words; rewrite M2; eapply items_plain_words; eauto).
  assert (PK : plain kw) by (split; rewrite (word_kind _ _ _ W); discriminate).
  assert (PN : plain nt) by (split; rewrite (word_kind _ _ _ W0); discriminate).
  assert (PL : plain lb) by (split; rewrite (word_kind _ _ _ W1); discriminate).
  assert (PR : plain rb) by (split; rewrite (word_kind _ _ _ W2); discriminate).
  set (rest := nt :: lb :: ts ++ [rb; e]). set (p0 := editor0 path (kw :: rest)).
  cbn [length] in L. rewrite app_length in L. cbn [length] in L.
  assert (A : advance p0 = POk tt (going p0 kw rest token0 [] [])).
  { change p0 with (going p0 token0 (kw :: rest) token0 [] []) at 1. now apply advance_going. }
  rewrite (bind_ok advance _ _ tt _ A). destruct fuel as [|[|fuel]]; [lia|lia|].
  rewrite (LemNestFile.top_go E fuel p0 kw rest token0 [] [] eq_refl (or_introl (word_kind _ _ _ W)) _ eq_refl). rewrite (word_kind _ _ _ W).
  unfold rest. rewrite bind_adv by auto. set (f1 := S fuel).
  assert (exists z zs, ts ++ [rb; e] = z :: zs /\ plain z) as (z & zs & EZ & PZ).
  { destruct ts as [|z zs]; [exists rb, [e]|exists z, (zs ++ [rb; e])]; (split; [reflexivity|]); auto. exact (Forall_inv P). }
  unfold parse_struct. rewrite bind_cur, bind_con; [|exact (word_kind _ _ _ W0)|auto]. rewrite (word_text _ _ _ W0).
  set (g := going p0 lb (ts ++ [rb; e]) nt [] []). rewrite bind_get. change (p_structs g) with (@nil (list N * list N)). change (p_enums g) with (p_enums p0).
  change (some (find_struct [] s) || some (find_enum (p_enums p0) s)) with false. rewrite bind_when. rewrite bind_get.
  unfold upd_p at 1. unfold pbind at 1. change (p_unaligned g) with false. rewrite bind_when.
  set (p1 := add_site false nt (set_struct (Some s) [] (set_defs [(s, [])] [] p0))).
  match goal with |- context [pbind (parse_block E f1) _ ?q] => change q with (going p1 lb (ts ++ [rb; e]) nt [] []) end.
  set (p2 := set_struct (p_sname p1) (p_fields p1 ++ map i_name is) p1).
  assert (E1 : block_loop E fuel (going p1 z zs lb [] []) = POk tt (going p2 rb [e] (last ts lb) ([] ++ code (flat_map (item_instrs (index_of T)) is)) T)).
  { apply (items_go E is ws R); auto.
    - apply Forall_app. auto.
    - exact (word_kind _ _ _ W2).
    - lia.
    - intros w I. apply LemNestFile.find_missing. cbn [p1 add_site p_structs set_struct set_defs map fst]. intros [<-|[]]. now apply NT.
    - cbn [p1 add_site p_fields set_struct app]. apply Forall_forall. intros q I. apply (proj1 (Forall_forall _ _) TX). now apply names_incl. }
  assert (PBK : parse_block E f1 (going p1 lb (ts ++ [rb; e]) nt [] []) = POk tt (going p2 e [e] rb (code (flat_map (item_instrs (index_of T)) is)) T)).
  { unfold f1. cbn [parse_block]. rewrite EZ, bind_con by (auto; exact (word_kind _ _ _ W1)). rewrite (bind_ok _ _ _ _ _ E1). cbn [app].
    pose proof (bind_end (fun x => ret x) TRbrace p2 rb e (last ts lb) (code (flat_map (item_instrs (index_of T)) is)) T (word_kind _ _ _ W2) (word_kind _ _ _ W3)) as BE.
    unfold ret, pbind in BE. destruct (consume TRbrace _) as [[] q| |] in BE |- *; exact BE. }
  rewrite (bind_ok _ _ _ _ _ PBK). rewrite bind_get.
  change (p_bitmode (going p2 e [e] rb (code (flat_map (item_instrs (index_of T)) is)) T)) with false. cbn [andb]. rewrite bind_when.
  unfold upd_p. cbv beta iota. unfold f1. cbn [top_level]. rewrite bind_get.
  match goal with |- context [is_kind TEof ?t] => change t with e end. rewrite is_kind_true by exact (word_kind _ _ _ W3). rewrite bind_get. cbn [orb]. rewrite bind_get.
  eexists. split; [reflexivity|]. cbn. auto.
Qed.

(** ** What is proposed *)
Lemma front_known E fuel path src toks s front rest ws : lex src = Some toks ->
  map word_of toks = [sign TStruct "struct"; (TIdentifier, s); sign TLbrace "{"] ++ ws ++ [sign TRbrace "}"] ++ [(TEof, [])] ->
  items_read (front ++ rest) ws -> Forall (fun i => exists c, i_what i = Plain c) front -> NoDup (map i_name (front ++ rest)) -> ~ In s SpecNest.type_names ->
  Forall text (strs (front ++ rest)) -> lenN (LemParse.table [] (strs (front ++ rest))) <= 65536 -> (length toks < fuel)%nat ->
  exists p tail, analyse E fuel path src = POk tt p /\ p_enums p = [] /\ (length (p_errs p) <= 1)%nat /\ LemOffers.fields_of p s = flat_map sym_fields (flat_map item_sym front) ++ tail /\
    (forall n, In n (flat_map sym_fields (flat_map item_sym front)) <-> In n (map i_name front)).
Proof.
  intros LX M R PF ND NT TX SL L. destruct (struct_analysed E _ _ R fuel path src toks s LX M ND NT TX SL L) as (p & A & ES & EP & EE & LE1).
  set (T := LemParse.table [] (strs (front ++ rest))) in *.
  assert (RF : Forall (fun i => exists w, item_read i w) front).
  { clear - R. remember (front ++ rest) as is eqn:EQ. revert front EQ. induction R as [|i l w wr IR R IH]; intros front EQ; [destruct front; [constructor|discriminate]|].
    destruct front as [|i' front]; [constructor|]. injection EQ as <- ->. constructor; eauto. }
  assert (NM : forall n, In n (flat_map sym_fields (flat_map item_sym front)) <-> In n (map i_name front)).
  { intros n. clear - RF PF. induction front as [|i l IH]; [reflexivity|]. pose proof (Forall_inv RF) as (w & IR). pose proof (Forall_inv PF) as PI.
    destruct (plain_syms i w IR PI) as (_ & B & C). cbn [flat_map map In]. rewrite flat_map_app, in_app_iff, IH by (eapply Forall_inv_tail; eauto).
    split; (intros [I|I]; [left|right; exact I]); [symmetry; now apply C|now subst n]. }
  assert (KS : Forall (fun x => keyed_sym x \/ bare_sym x) (flat_map item_sym front)).
  { clear - RF PF. induction front as [|i l IH]; [constructor|]. pose proof (Forall_inv RF) as (w & IR). pose proof (Forall_inv PF) as PI.
    cbn [flat_map]. apply Forall_app. split; [exact (proj1 (plain_syms i w IR PI))|]. apply IH; eapply Forall_inv_tail; eauto. }
  set (sy := flat_map item_sym front) in *.
  exists p, (code_fields T (length (code (map (inst (index_of T)) sy)) - length sy + length (code (flat_map (item_instrs (index_of T)) rest))) (code (flat_map (item_instrs (index_of T)) rest))).
  split; [exact A|]. split; [exact EE|]. split; [exact LE1|]. split; [|exact NM].
  unfold LemOffers.fields_of. rewrite EP, ES. unfold find_struct. cbn [find fst]. unfold same_text. destruct list_eq_dec as [_|NE]; [|contradiction]. cbn [option_map snd].
  assert (EC : code (flat_map (item_instrs (index_of T)) (front ++ rest)) = code (map (inst (index_of T)) sy) ++ code (flat_map (item_instrs (index_of T)) rest)).
  { unfold code. rewrite flat_map_app, flat_map_app. f_equal. f_equal. unfold sy. generalize (index_of T). intros id. clear. induction front as [|i l IH]; [reflexivity|]. cbn [flat_map]. now rewrite map_app, IH, item_sym_ok. }
  rewrite EC, app_length. pose proof (syms_short (index_of T) sy) as SH.
  replace (length (code (map (inst (index_of T)) sy)) + length (code (flat_map (item_instrs (index_of T)) rest)))%nat
    with (length sy + (length (code (map (inst (index_of T)) sy)) - length sy + length (code (flat_map (item_instrs (index_of T)) rest))))%nat by lia.
  apply many_syms; auto.
  - unfold T. apply table_text; [constructor|exact TX].
  - intros n I. apply NM in I. unfold T. apply table_in; [constructor|exact TX|]. right. apply names_incl. rewrite map_app. apply in_or_app. now left.
Qed.
Lemma fields_proposed E fuel path src toks s front rest ws : lex src = Some toks ->
  map word_of toks = [sign TStruct "struct"; (TIdentifier, s); sign TLbrace "{"] ++ ws ++ [sign TRbrace "}"] ++ [(TEof, [])] ->
  items_read (front ++ rest) ws -> Forall (fun i => exists c, i_what i = Plain c) front -> NoDup (map i_name (front ++ rest)) -> ~ In s SpecNest.type_names ->
  Forall text (strs (front ++ rest)) -> lenN (LemParse.table [] (strs (front ++ rest))) <= 65536 -> (length toks < fuel)%nat ->
  forall before line character d, cursor_at src before line character -> In d [chars "count"; chars "len"] ->
  arguments_of d (in_front before toks) -> body_of s (in_front before toks) ->
  exists l, complete E fuel path src line character = Offered (of_kind SpecComplete.field l) /\ forall n, In n (map i_name front) -> In n l.
Proof.
  intros LX M R PF ND NT TX SL L before line ch d CA ID AR BO.
  destruct (front_known E fuel path src toks s front rest ws LX M R PF ND NT TX SL L) as (p & tail & A & EE & LE1 & EF & NM).
  assert (X : complete E fuel path src line ch = Offered (offers p (LemOffers.front_scan (in_front before toks)))).
  { unfold complete. rewrite LX, A. assert (K : (ModelDiag.kept <? length (p_errs p))%nat = false) by (apply Nat.ltb_ge; change ModelDiag.kept with 1024%nat; lia).
    rewrite K. f_equal. pose proof (LemPlace.lex_tokens _ _ LX) as TK. rewrite (LemComplete.cursor_eq _ _ _ _ CA), (LemComplete.scan_front _ _ _ _ TK); [reflexivity|].
    destruct CA as ((post & ->) & _). rewrite lenN_app. lia. }
  exists (flat_map sym_fields (flat_map item_sym front) ++ tail). split; [|intros n I; apply in_or_app; left; now apply NM].
  rewrite X. f_equal. rewrite <- EF. apply LemOffers.deco_iff in AR as (kd & AR). apply LemOffers.body_iff in BO as (kb & BO).
  unfold offers. rewrite AR, BO, EE. cbn [find_enum find].
  unfold LemOffers.fields_of. destruct (find_struct (p_structs p) s); destruct (_ && _); (destruct ID as [<-|[<-|[]]]; reflexivity).
Qed.
(** The names are names: they come from words of the text *)
Lemma items_words is ws n : items_read is ws -> In n (strs is) -> In (TIdentifier, n) ws.
Proof.
  induction 1 as [|f l ws wr IR FR IH]; intros I; [contradiction|]. apply in_or_app. cbn [flat_map] in I. apply in_app_iff in I as [I|I]; [left|right; auto].
  eapply item_words; eauto.
Qed.
Lemma items_text src toks a is ws b : lex src = Some toks -> map word_of toks = a ++ ws ++ b -> items_read is ws -> Forall text (strs is).
Proof.
  intros LX M R. apply Forall_forall. intros n I. apply alnum_text.
  assert (T : tokens_of 0 src toks).
  { destruct (lex_from_spec (Datatypes.S (List.length src)) src 0 1 ltac:(lia)) as (ts & L & T). unfold lex in LX. rewrite L in LX. injection LX as <-. exact T. }
  apply (token_names _ _ _ T). rewrite M. apply in_or_app. right. apply in_or_app. left. eapply items_words; eauto.
Qed.
