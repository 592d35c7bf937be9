(** Compiling schemas with structures: members and structure definitions. *)
From Coq Require Import Strings.String ZifyBool ZifyNat ZifyN.
From Verif Require Import Base SpecBytes SpecVM ModelVM ModelImage ModelText SpecText ModelNames ModelParse ModelSchema SpecParse LemBase LemStr LemText
  LemParse SpecNames LemNames SpecPacket LemPacket SpecMessage SpecNest.

(** ** Induction over members *)
Lemma member_induction (P : member -> Prop) : (forall f, P (Flat f)) -> (forall os x n b, Forall P b -> P (Nest os x n b)) -> forall m, P m.
Proof.
  intros F N. fix IH 1. intros [f|os x n b]; [apply F|]. apply N. induction b as [|m b IB]; constructor; [apply IH|exact IB].
Qed.
Lemma every_forall {A} (P : A -> Prop) l : every P l <-> Forall P l.
Proof. induction l as [|a l IH]; cbn [every]; [split; auto|]. rewrite IH. split; [intros (X & Y); auto|intros X; inversion X; auto]. Qed.

(** ** Instructions with names in place of numbers *)
Definition smarked (big : bool) (l : list sym) : list sym := if big then [(0x02, [], [])] ++ l ++ [(0x01, [], [])] else l.
Definition srepeated (x : extent) (n : list N) (l : list sym) : list sym :=
  match x with
  | One => l
  | Fixed c => [(0x34, [n], bytes_of LE 4 c)] ++ l ++ [(0x38, [], [])]
  | Counted w => [(array_op w, [n], [])] ++ l ++ [(0x38, [], [])]
  end.
Fixpoint member_sym (pre : list N) (m : member) : list sym :=
  match m with
  | Flat f => smarked (f_big f) (content_sym (f_content f) (pre ++ f_name f))
  | Nest os x n b =>
    smarked (last os false) (srepeated x (pre ++ n) ([(0x03, [pre ++ n], [])] ++ flat_map (member_sym (inside pre n)) b ++ [(0x04, [], [])]))
  end.
Definition members_sym (pre : list N) (b : list member) : list sym := flat_map (member_sym pre) b.
Lemma smarked_ok id big l : map (inst id) (smarked big l) = marked big (map (inst id) l).
Proof. unfold smarked, marked. destruct big; [|reflexivity]. now rewrite !map_app. Qed.
Lemma srepeated_ok id x n l : map (inst id) (srepeated x n l) = repeated x (id n) (map (inst id) l).
Proof. destruct x; cbn [srepeated repeated]; [reflexivity| |]; now rewrite !map_app. Qed.
Lemma content_sym_ok id c n : map (inst id) (content_sym c n) = content_instrs c (id n).
Proof. destruct c as [ty [|m|w]|m|w]; reflexivity. Qed.
Lemma flat_map_ext_in {A B} (f g : A -> list B) l : Forall (fun a => f a = g a) l -> flat_map f l = flat_map g l.
Proof. induction 1 as [|a l E F IH]; [reflexivity|]. cbn [flat_map]. now rewrite E, IH. Qed.
Lemma map_flat {A B C} (h : B -> C) (f : A -> list B) l : map h (flat_map f l) = flat_map (fun a => map h (f a)) l.
Proof. induction l as [|a l IH]; [reflexivity|]. cbn [flat_map]. now rewrite map_app, IH. Qed.
Lemma member_sym_ok id m : forall pre, map (inst id) (member_sym pre m) = member_instrs id pre m.
Proof.
  induction m as [f|os x n b IH] using member_induction; intros pre; cbn [member_sym member_instrs]; rewrite smarked_ok.
  - now rewrite content_sym_ok.
  - rewrite srepeated_ok, !map_app, map_flat. rewrite (flat_map_ext_in _ (member_instrs id (inside pre n)) b); [reflexivity|].
    eapply Forall_impl; [|exact IH]. intros a E. apply E.
Qed.
Lemma members_sym_ok id pre b : map (inst id) (members_sym pre b) = flat_map (member_instrs id pre) b.
Proof. unfold members_sym. rewrite map_flat. apply flat_map_ext_in. apply Forall_forall. intros m _. apply member_sym_ok. Qed.

(** Prefixing *)
Definition qualified (p : list N) (x : sym) : sym := (fst (fst x), map (fun n => p ++ [46] ++ n) (snd (fst x)), snd x).
Lemma smarked_map (f : sym -> sym) big l : (forall op a, f (op, [], a) = (op, [], a)) -> map f (smarked big l) = smarked big (map f l).
Proof. intros E. unfold smarked. destruct big; [|reflexivity]. rewrite !map_app. cbn [map]. now rewrite !E. Qed.
Lemma member_sym_in p m : forall pre, map (qualified p) (member_sym pre m) = member_sym (p ++ [46] ++ pre) m.
Proof.
  induction m as [f|os x n b IH] using member_induction; intros pre; cbn [member_sym]; rewrite smarked_map by reflexivity; f_equal.
  - rewrite <- !app_assoc. destruct (f_content f) as [ty [|m|w]|m|w]; reflexivity.
  - rewrite <- !app_assoc.
    assert (E : map (qualified p) (flat_map (member_sym (inside pre n)) b) = flat_map (member_sym (inside (p ++ [46] ++ pre) n)) b).
    { rewrite map_flat. apply flat_map_ext_in. eapply Forall_impl; [|exact IH]. cbv beta. intros a E. rewrite E. unfold inside. now rewrite <- !app_assoc. }
    destruct x; cbn [srepeated]; rewrite ?map_app, ?E; cbn [map qualified fst snd app]; rewrite ?map_app, ?E; reflexivity.
Qed.
Lemma members_sym_in p b : map (qualified p) (members_sym [] b) = members_sym (inside [] p) b.
Proof. unfold members_sym. rewrite map_flat. apply flat_map_ext_in. apply Forall_forall. intros m _. apply member_sym_in. Qed.

(** The names of the instructions are those of the members *)
Definition sym_refs (l : list sym) : list (list N) := flat_map (fun x => snd (fst x)) l.
Lemma refs_app a b : sym_refs (a ++ b) = sym_refs a ++ sym_refs b.
Proof. apply flat_map_app. Qed.
Lemma refs_marked big l n : In n (sym_refs (smarked big l)) <-> In n (sym_refs l).
Proof. unfold smarked. destruct big; [|tauto]. rewrite !refs_app, !in_app_iff. cbn. tauto. Qed.
Lemma member_refs m : forall pre n, In n (sym_refs (member_sym pre m)) <-> In n (member_names pre m).
Proof.
  induction m as [f|os x n b IH] using member_induction; intros pre q; cbn [member_sym member_names]; rewrite refs_marked.
  - destruct (f_content f) as [ty [|m|w]|m|w]; cbn; tauto.
  - assert (E : In q (sym_refs (flat_map (member_sym (inside pre n)) b)) <-> In q (flat_map (member_names (inside pre n)) b)).
    { clear - IH. induction IH as [|a l X F IHl]; [tauto|]. cbn [flat_map]. rewrite refs_app, !in_app_iff, IHl, X. tauto. }
    destruct x; cbn [srepeated]; rewrite ?refs_app, ?in_app_iff; cbn [sym_refs flat_map snd fst app In]; fold (sym_refs (flat_map (member_sym (inside pre n)) b));
      rewrite ?flat_map_app, ?in_app_iff; fold (sym_refs (flat_map (member_sym (inside pre n)) b)); rewrite ?E; cbn [flat_map app In snd fst]; tauto.
Qed.
Lemma members_refs b pre n : In n (sym_refs (members_sym pre b)) <-> In n (flat_map (member_names pre) b).
Proof. unfold members_sym. induction b as [|a l IH]; [tauto|]. cbn [flat_map]. rewrite refs_app, !in_app_iff, IH, member_refs. tauto. Qed.

(** Instructions that can be copied *)
Definition sym_copy (x : sym) : Prop := sym_ok x /\
  let '(op, ns, a) := x in opcode_size op = Some (1 + 2 * lenN ns + lenN a, match ns with [] => false | _ => true end) /\ (length ns <= 1)%nat.
Definition extent_wf (x : extent) : Prop := match x with Counted w => In w [1; 2; 4] | _ => True end.
Fixpoint member_wf (m : member) : Prop :=
  match m with
  | Flat f => content_ok (f_content f)
  | Nest _ x _ b => extent_wf x /\ every member_wf b
  end.
Lemma marked_copy big l : Forall sym_copy l -> Forall sym_copy (smarked big l).
Proof. intros F. destruct big; [|exact F]. cbn [smarked]. repeat (apply Forall_app; split); auto; (constructor; [split; [easy_sym|split; [reflexivity|cbn; lia]]|constructor]). Qed.
Ltac copy_it := split; [first [easy_sym|apply array_sym|apply string_sym]|split; [reflexivity|cbn; lia]].
Lemma array_copy w n : sym_copy (array_op w, [n], []).
Proof. split; [apply array_sym|split; [unfold array_op; destruct w as [|[[]|[]|]]; reflexivity|cbn; lia]]. Qed.
Lemma string_copy w n : sym_copy (string_op w, [n], []).
Proof. split; [apply string_sym|split; [unfold string_op; destruct w as [|[[]|[]|]]; reflexivity|cbn; lia]]. Qed.
Lemma type_copy ty n : 0x10 <= ty <= 0x1A -> sym_copy (ty, [n], []).
Proof.
  intros B. split; [now apply type_sym|]. split; [|cbn; lia].
  assert (ty = 16 \/ ty = 17 \/ ty = 18 \/ ty = 19 \/ ty = 20 \/ ty = 21 \/ ty = 22 \/ ty = 23 \/ ty = 24 \/ ty = 25 \/ ty = 26) as C by lia.
  repeat (destruct C as [-> | C]; [reflexivity|]). now subst ty.
Qed.
Lemma fixed_copy n c : sym_copy (0x34, [n], bytes_of LE 4 c).
Proof. copy_it. Qed.
Lemma text_copy n c : sym_copy (0x30, [n], bytes_of LE 2 c).
Proof. copy_it. Qed.
Lemma end_copy : sym_copy (0x38, [], []).
Proof. copy_it. Qed.
Lemma content_copy c n : content_ok c -> Forall sym_copy (content_sym c n).
Proof.
  intros O. destruct c as [ty [|m|w]|m|w]; cbn [content_sym content_ok] in *; repeat apply Forall_cons; try apply Forall_nil;
    auto using type_copy, array_copy, string_copy, fixed_copy, text_copy, end_copy.
Qed.
Lemma member_copy m : member_wf m -> forall pre, Forall sym_copy (member_sym pre m).
Proof.
  induction m as [f|os x n b IH] using member_induction; intros W pre; cbn [member_sym]; apply marked_copy; cbn [member_wf] in W.
  - now apply content_copy.
  - destruct W as (WX & WB). apply every_forall in WB.
    assert (F : Forall sym_copy ([(0x03, [pre ++ n], [])] ++ flat_map (member_sym (inside pre n)) b ++ [(0x04, [], [])])).
    { constructor; [copy_it|]. apply Forall_app. split; [|constructor; [copy_it|constructor]].
      clear - IH WB. induction WB as [|a l WA WB IHl]; [constructor|]. inversion IH; subst. cbn [flat_map]. apply Forall_app. split; auto. }
    destruct x; cbn [srepeated]; auto; (constructor; [auto using fixed_copy, array_copy|apply Forall_app; split; [exact F|constructor; [apply end_copy|constructor]]]).
Qed.
Lemma members_copy b pre : Forall member_wf b -> Forall sym_copy (members_sym pre b).
Proof. induction 1 as [|a l WA WB IH]; [constructor|]. unfold members_sym. cbn [flat_map]. apply Forall_app. split; [now apply member_copy|exact IH]. Qed.

Lemma nodup_end {A} (l : list A) x : NoDup l -> ~ In x l -> NoDup (l ++ [x]).
Proof.
  induction l as [|y l IH]; intros ND NI; cbn [app]; [constructor; [intros []|constructor]|]. inversion ND as [|? ? NY ND']; subst. constructor.
  - rewrite in_app_iff. intros [I|[E|[]]]; [auto|]. apply NI. left. auto.
  - apply IH; [exact ND'|]. intros I. apply NI. now right.
Qed.
(** ** Tables that stay within a set of names *)
Definition sized (id : list N -> N) (l : list sym) : list N := code (map (inst id) l).
Lemma sized_app id a b : sized id (a ++ b) = sized id a ++ sized id b.
Proof. unfold sized, code. now rewrite map_app, flat_map_app. Qed.
Lemma sized_ext id id' l : (forall n, In n (sym_refs l) -> id n = id' n) -> sized id l = sized id' l.
Proof.
  intros E. unfold sized. f_equal. induction l as [|x l IH]; [reflexivity|]. cbn [map]. rewrite IH by (intros; apply E; apply in_or_app; auto). f_equal.
  unfold inst. f_equal. apply map_ext_in. intros n I. apply E. apply in_or_app. left. exact I.
Qed.
Section Tables.
  Variable U : list (list N).
  Hypothesis UL : lenN U <= 65536.
  Hypothesis UT : Forall text U.
  Definition stage (T : list (list N)) : Prop := NoDup T /\ Forall text T /\ incl T U.
  Definition extends (T T' : list (list N)) : Prop := exists x, T' = T ++ x.
  Lemma extends_refl T : extends T T.
  Proof. exists []. now rewrite app_nil_r. Qed.
  Lemma extends_trans A B C : extends A B -> extends B C -> extends A C.
  Proof. intros (x & ->) (y & ->). exists (x ++ y). now rewrite app_assoc. Qed.
  Lemma extends_in T T' n : extends T T' -> In n T -> In n T'.
  Proof. intros (x & ->) I. apply in_or_app. auto. Qed.
  Lemma extends_index T T' n : extends T T' -> In n T -> index_of T' n = index_of T n.
  Proof. intros (x & ->) I. now apply index_in. Qed.
  Lemma extends_sized T T' l : extends T T' -> (forall n, In n (sym_refs l) -> In n T) -> sized (index_of T) l = sized (index_of T') l.
  Proof. intros X I. apply sized_ext. intros n J. symmetry. apply extends_index; auto. Qed.
  Lemma stage_len T : stage T -> lenN T <= 65536.
  Proof. intros (ND & _ & I). apply NoDup_incl_length in I; auto. unfold lenN in *. lia. Qed.
  Lemma stage_add T n : stage T -> In n U -> stage (table1 T n) /\ lenN (table1 T n) <= 65536 /\ extends T (table1 T n) /\ In n (table1 T n).
  Proof.
    intros (ND & TX & I) J. assert (SG : stage (table1 T n)).
    { split; [|split; [apply table1_text; auto; exact (proj1 (Forall_forall _ _) UT n J)|]].
      - rewrite table1_eq by auto. destruct in_dec as [K|K]; [exact ND|]. now apply nodup_end.
      - rewrite table1_eq by auto. destruct in_dec as [K|K]; [exact I|]. intros z Z. apply in_app_iff in Z as [Z|[<-|[]]]; auto. }
    split; [exact SG|]. pose proof (stage_len _ SG) as L. split; [exact L|]. split; [destruct (table1_app T n) as (x & ->); exists x; reflexivity|].
    exact (proj2 (add_index T n TX L)).
  Qed.

  (** ** Copying with a prefix *)
  Lemma sized_one id op ns a : sized id [(op, ns, a)] = op :: flat_map (le_bytes 2) (map id ns) ++ a.
  Proof. unfold sized, code. cbn [map flat_map]. rewrite app_nil_r. reflexivity. Qed.
  Lemma sym_step pre op ns a rest T0 T out : text pre -> sym_copy (op, ns, a) -> stage T -> extends T0 T ->
    (forall n, In n ns -> In n T0 /\ In (pre ++ [46] ++ n) U /\ lenN (pre ++ [46] ++ n) < 512) ->
    exists T', (forall f, append_with_prefix (S f) (sized (index_of T0) [(op, ns, a)] ++ rest) pre T out =
      append_with_prefix f rest pre T' (out ++ sized (index_of T') [qualified pre (op, ns, a)])) /\
      stage T' /\ extends T T' /\ (forall n, In n ns -> In (pre ++ [46] ++ n) T').
  Proof.
    intros TP (SO & OS & NL) ST EX NM. rewrite sized_one. set (head := op :: flat_map (le_bytes 2) (map (index_of T0) ns) ++ a).
    assert (LS : (N.to_nat (1 + 2 * lenN ns + lenN a) = length head)%nat).
    { unfold head. cbn [length]. rewrite app_length.
      replace (length (flat_map (le_bytes 2) (map (index_of T0) ns))) with (2 * length ns)%nat by (destruct ns as [|? [|? ?]]; cbn [length] in *; try lia; reflexivity).
      unfold lenN. lia. }
    assert (AW : forall f, append_with_prefix (S f) (head ++ rest) pre T out =
      (if lenN (head ++ rest) <? 1 + 2 * lenN ns + lenN a then Some (Ok (T, out ++ head ++ rest)) else
        let rest0 := skipn (N.to_nat (1 + 2 * lenN ns + lenN a)) (head ++ rest) in
        if negb (match ns with [] => false | _ => true end) then append_with_prefix f rest0 pre T (out ++ firstn (N.to_nat (1 + 2 * lenN ns + lenN a)) (head ++ rest))
        else match prefixed T pre (rd2 (head ++ rest) 1) with Ub u => Some (Ub u) | Ok name => let (strs, id) := strtab_add T name in
          append_with_prefix f rest0 pre strs (out ++ [op] ++ le2 id ++ skipn 3 (firstn (N.to_nat (1 + 2 * lenN ns + lenN a)) (head ++ rest))) end)).
    { intros f. unfold head. cbn [append_with_prefix app]. rewrite OS. reflexivity. }
    destruct (N.ltb_spec (lenN (head ++ rest)) (1 + 2 * lenN ns + lenN a)) as [X|_]; [exfalso; unfold lenN in X, LS; rewrite app_length in X; lia|].
    cbv zeta in AW. rewrite skipn_here, firstn_here in AW by auto.
    destruct ns as [|n [|? ?]]; [| |cbn in NL; lia]; cbn [negb] in AW.
    - exists T. split; [intros f; rewrite AW; unfold qualified; cbn [fst snd map]; now rewrite sized_one|]. split; [exact ST|]. split; [apply extends_refl|]. intros n [].
    - destruct (NM n (or_introl eq_refl)) as (I0 & IU & LN).
      assert (IT : In n T) by (eapply extends_in; eauto).
      pose proof (stage_len T ST) as LT. pose proof (index_bound T n IT) as IB.
      assert (KR : rd2 (head ++ rest) 1 = index_of T n).
      { unfold head. cbn [map]. rewrite <- (extends_index T0 T n EX I0). apply key_value. lia. }
      rewrite KR in AW. unfold prefixed in AW. rewrite nth_index in AW by auto. destruct ST as (ND & TX & IC).
      assert (TN : text n) by exact (proj1 (Forall_forall _ _) TX n IT).
      rewrite cstr_text in AW by auto. rewrite !lenN_app in LN. unfold lenN at 2 in LN. cbn [length] in LN.
      destruct (N.ltb_spec (lenN pre + 1 + lenN n) 512) as [_|Y]; [|lia].
      destruct (stage_add T _ (conj ND (conj TX IC)) IU) as (S1 & S2 & S3 & S4).
      rewrite (proj1 (add_index T _ TX S2)) in AW. exists (table1 T (pre ++ [46] ++ n)). split.
      { intros f. rewrite AW. unfold qualified. cbn [fst snd map]. rewrite sized_one. reflexivity. }
      split; [exact S1|]. split; [exact S3|]. intros z [<-|[]]. exact S4.
  Qed.
  Lemma prefix_syms pre : text pre -> forall l, Forall sym_copy l -> forall T0 T out f, stage T -> extends T0 T ->
    (forall n, In n (sym_refs l) -> In n T0 /\ In (pre ++ [46] ++ n) U /\ lenN (pre ++ [46] ++ n) < 512) -> (length (sized (index_of T0) l) <= f)%nat ->
    exists T', append_with_prefix f (sized (index_of T0) l) pre T out = Some (Ok (T', out ++ sized (index_of T') (map (qualified pre) l))) /\
      stage T' /\ extends T T' /\ (forall n, In n (sym_refs (map (qualified pre) l)) -> In n T').
  Proof.
    intros TP l F. induction F as [|[[op ns] a] l SC F IH]; intros T0 T out f ST EX NM LF.
    - exists T. unfold sized. cbn [map code flat_map]. rewrite app_nil_r. split; [destruct f; reflexivity|]. split; [exact ST|]. split; [apply extends_refl|]. intros n [].
    - change ((op, ns, a) :: l) with ([(op, ns, a)] ++ l) in *. rewrite sized_app in *. rewrite app_length in LF.
      destruct f as [|f]; [rewrite sized_one in LF; cbn [length] in LF; lia|].
      destruct (sym_step pre op ns a (sized (index_of T0) l) T0 T out TP SC ST EX) as (T1 & E1 & S1 & X1 & I1).
      { intros n I. apply NM. rewrite refs_app. apply in_or_app. left. cbn. rewrite app_nil_r. exact I. }
      destruct (IH T0 T1 (out ++ sized (index_of T1) [qualified pre (op, ns, a)]) f S1) as (T2 & E2 & S2 & X2 & I2).
      { eapply extends_trans; eauto. }
      { intros n I. apply NM. rewrite refs_app. apply in_or_app. auto. }
      { rewrite sized_one in LF. cbn [length] in LF. lia. }
      assert (I1' : forall n, In n (sym_refs [qualified pre (op, ns, a)]) -> In n T1).
      { intros n I. cbn in I. rewrite app_nil_r in I. apply in_map_iff in I as (z & <- & I). now apply I1. }
      exists T2. split; [rewrite E1, E2|split; [exact S2|split; [eapply extends_trans; eauto|]]].
      + rewrite map_app, sized_app, <- app_assoc. do 3 f_equal. f_equal. f_equal. now apply extends_sized.
      + intros n I. rewrite map_app, refs_app in I. apply in_app_iff in I as [I|I]; [|now apply I2]. eapply extends_in; [exact X2|]. now apply I1'.
  Qed.
End Tables.

(** ** How many *)
Lemma extent_shape x b : extent_read x b -> forall d ty bs p y q pv o s t r, d_fixed d = None -> d_count d = None ->
  match_keyword ty "string" = false -> map word_of bs = b -> y :: q = bs ++ t :: r -> Forall plain (bs ++ [t]) -> tk t = TSemicolon ->
  forall B (k : deco * shape -> par B),
    pbind (field_shape ty d) k (going p y q pv o s) = k (shaped (Scalar 0 x) d, shape_of (Scalar 0 x) false) (going p t r (last bs pv) o s).
Proof.
  intros R d ty bs p y q pv o s t r DF DC NS M X P KT B k.
  assert (MT : forall kw, match_keyword t kw = false) by (intros kw; unfold match_keyword; rewrite is_kind_false by congruence; reflexivity).
  destruct R as [|dg n L LT|cw cs IC]; repeat one_token; cbn [app] in X, P; injection X as -> ->; split_plain.
  - unfold field_shape. rewrite bind_bind, bind_at, is_kind_false by congruence. rewrite bind_bind, bind_ret. cbv zeta. cbn [fst snd].
    rewrite bind_bind, bind_cur, MT, NS. reflexivity.
  - unfold field_shape. rewrite bind_bind, bind_at, is_kind_true by exact (word_kind _ _ _ W).
    rewrite bind_bind, bind_bind, bind_adv by auto. rewrite bind_bind, bind_at, is_kind_false by (rewrite (word_kind _ _ _ W0); discriminate).
    rewrite bind_bind, bind_num; [|exact (word_kind _ _ _ W0)|auto]. rewrite bind_bind, bind_con; [|exact (word_kind _ _ _ W1)|auto].
    rewrite bind_ret. cbv zeta. cbn [fst snd]. rewrite bind_bind, bind_cur, MT, NS. rewrite (word_text _ _ _ W0), (u32_of _ _ L LT). reflexivity.
  - unfold field_shape. rewrite bind_bind, bind_at, is_kind_true by exact (word_kind _ _ _ W).
    rewrite bind_bind, bind_bind, bind_adv by auto. rewrite bind_bind, bind_at, is_kind_true by exact (word_kind _ _ _ W0).
    rewrite bind_bind, bind_adv by auto. rewrite bind_ret. cbv zeta. cbn [fst snd]. rewrite bind_bind, bind_cur.
    rewrite (keyword_word t2), W1. change (match_keyword (of_word (ident "prefix")) "prefix") with true. cbv iota.
    rewrite bind_bind, bind_adv by auto. rewrite bind_bind, bind_cur. rewrite bind_bind, bind_con; [|exact (word_kind _ _ _ W2)|auto].
    rewrite DF, DC. cbn [some negb andb]. rewrite prefix_word, W2, (counter_facts _ _ _ _ _ IC). reflexivity.
Qed.
Lemma nest_code id os x n b u : let d := with_be (last os false) deco0 in
  sized id (member_sym [] (Nest os x n b)) =
  (if last os false then [0x02] else []) ++ open_code (shaped (Scalar 0 x) d) (shape_of (Scalar 0 x) u) (id n) ++
  ([0x03] ++ le2 (id n)) ++ sized id (members_sym (inside [] n) b) ++ [0x04] ++
  (if some (s_array (shape_of (Scalar 0 x) u)) then [0x38] else []) ++ (if last os false then [0x01] else []).
Proof.
  cbv zeta. cbn [member_sym]. fold (members_sym (inside [] n) b). set (mid := members_sym _ b). cbn [app].
  assert (E : sized id ((3, [n], []) :: mid ++ [(4, [], [])]) = [0x03] ++ le2 (id n) ++ sized id mid ++ [0x04]).
  { change ((3, [n], []) :: mid ++ [(4, [], [])]) with ([(3, [n], []) : sym] ++ mid ++ [(4, [], []) : sym]). rewrite !sized_app, !sized_one. cbn [map flat_map]. rewrite !app_nil_r. reflexivity. }
  set (str := (3, [n], []) :: mid ++ [(4, [], [])]) in *.
  assert (R : sized id (srepeated x n str) = open_code (shaped (Scalar 0 x) (with_be (last os false) deco0)) (shape_of (Scalar 0 x) u) (id n) ++ sized id str ++
    (if some (s_array (shape_of (Scalar 0 x) u)) then [0x38] else [])).
  { destruct x as [|c|w]; cbn [srepeated]; rewrite ?sized_app, ?sized_one.
    - cbn. now rewrite app_nil_r.
    - cbn [map flat_map]. rewrite !app_nil_r. cbn -[le2 le4 sized bytes_of]. rewrite ?app_nil_r, ?le4_bytes, <- ?app_assoc. reflexivity.
    - cbn [map flat_map]. rewrite !app_nil_r. unfold open_code. cbn [shape_of mk_shape s_arr_op s_str_op s_array some].
      destruct (N.eqb_spec (array_op w) 0) as [Z|_]; [unfold array_op in Z; destruct w as [|[[]|[]|]]; discriminate Z|]. cbn -[le2 sized]. rewrite ?app_nil_r. reflexivity. }
  unfold smarked. destruct (last os false); rewrite ?sized_app, ?sized_one, R, E, <- ?app_assoc; cbn [app map flat_map]; rewrite ?app_nil_r; reflexivity.
Qed.

(** ** Members *)
Section Members.
  Variable U : list (list N).
  Hypothesis UL : lenN U <= 65536.
  Hypothesis UT : Forall text U.
  (** The structures that are known *)
  Definition env_ok (env : list structure) (p : pst) (T : list (list N)) : Prop :=
    forall s b, In (s, b) env -> ~ In s type_names /\ p_sname p <> Some s /\ Forall member_wf b /\
    exists T0, extends T0 T /\ find_struct (p_structs p) s = Some (sized (index_of T0) (members_sym [] b)) /\
      (forall n, In n (sym_refs (members_sym [] b)) -> In n T0).
  Lemma env_more env p T T' : env_ok env p T -> extends T T' -> env_ok env p T'.
  Proof.
    intros K X s b I. destruct (K s b I) as (A & B & C & T0 & D & F). split; [exact A|]. split; [exact B|]. split; [exact C|]. exists T0.
    split; [|exact F]. eapply extends_trans; eauto.
  Qed.
  Lemma not_string s ty : ~ In s type_names -> word_of ty = (TIdentifier, s) -> match_keyword ty "string" = false.
  Proof.
    intros NI W. unfold match_keyword, same_text. rewrite (word_text _ _ _ W). destruct list_eq_dec as [E|E]; [|apply andb_false_r].
    exfalso. apply NI. left. auto.
  Qed.
  Lemma nest_run E env os x n b s w : In (s, b) env -> extent_read x w -> forall ts p y q pv o T t r,
    map word_of ts = [(TIdentifier, s); (TIdentifier, n)] ++ w ++ [sign TSemicolon ";"] ->
    y :: q = ts ++ t :: r -> Forall plain (ts ++ [t]) ->
    env_ok env p T -> ~ In n (p_fields p) -> Forall text (p_fields p) -> stage U T ->
    (forall z, In z (member_names [] (Nest os x n b)) -> In z U /\ lenN z <= 255) ->
    exists T', field_rest E (with_be (last os false) deco0) (going p y q pv o T) =
      POk tt (going (set_struct (p_sname p) (p_fields p ++ [n]) p) t r (last ts pv) (o ++ sized (index_of T') (member_sym [] (Nest os x n b))) T') /\
      stage U T' /\ extends T T' /\ (forall z, In z (sym_refs (member_sym [] (Nest os x n b))) -> In z T').
  Proof.
    intros IE R ts p y q pv o T t r M X P KE NI FT ST NM.
    destruct (KE _ _ IE) as (TN & SN & WF & T0 & XT & FS & T0I).
    cbn [app] in M. one_token. one_token. apply map_eq_app in M as (bs & ts' & -> & MB & M). one_token. one_token. cbn [app] in X, P. injection X as -> ->.
    rewrite <- app_assoc in P |- *. cbn [app] in P |- *. pose proof (Forall_inv P) as P0. apply Forall_inv_tail in P. pose proof (Forall_inv P) as P1. apply Forall_inv_tail in P. rename P into P''.
    assert (PP : Forall plain (bs ++ [t2]) /\ plain t) by (apply Forall_app in P'' as (? & P''); inversion P'' as [|? ? P2 P3]; inversion P3; subst; split; auto; apply Forall_app; auto).
    destruct PP as (PB & PT).
    assert (NU : In n U /\ lenN n <= 255) by (apply NM; left; reflexivity). destruct NU as (NU & NL).
    destruct (stage_add U UL UT T n ST NU) as (S1 & L1 & X1 & I1). set (T1 := table1 T n) in *.
    unfold field_rest. rewrite !bind_at. rewrite (is_kind_false TSemicolon) by (rewrite (word_kind _ _ _ W); discriminate).
    cbn [d_alone with_be deco0 orb andb]. change (trans_code (with_be (last os false) deco0)) with (@nil N). rewrite bind_emit, app_nil_r.
    rewrite bind_cur, bind_con; [|exact (word_kind _ _ _ W)|auto]. rewrite bind_cur.
    rewrite (is_kind_false TSelf) by (rewrite (word_kind _ _ _ W0); discriminate).
    assert (exists z zs, bs ++ t2 :: t :: r = z :: zs /\ plain z /\ is_kind TColon z = false) as (z & zs & EZ & PZ & CZ).
    { destruct bs as [|z zs]; [exists t2, (t :: r)|exists z, (zs ++ t2 :: t :: r)]; (split; [reflexivity|]).
      - split; [inversion PB; auto|]. apply is_kind_false. rewrite (word_kind _ _ _ W1). discriminate.
      - split; [inversion PB; auto|]. apply is_kind_false. cbn [map] in MB. intros K.
        assert (KK : fst (word_of z) = TColon) by exact K. clear K. destruct R; cbn in MB; try discriminate MB; apply cons_inv in MB as (WW & _); rewrite WW in KK; discriminate KK. }
    rewrite EZ. rewrite bind_con; [|exact (word_kind _ _ _ W0)|auto].
    rewrite (word_text _ _ _ W0), fields_add by auto. rewrite bind_name; [|exact (proj1 (proj2 ST))|exact L1]. rewrite bind_at, CZ. rewrite bind_ret.
    fold T1. set (p1 := set_struct _ _ p). set (k := index_of T1 n).
    rewrite (extent_shape x w R (with_be (last os false) deco0) t0 bs p1 z zs t1 o T1 t2 (t :: r) eq_refl eq_refl (not_string _ _ TN W) MB (eq_sym EZ) PB (word_kind _ _ _ W1)).
    cbv zeta. cbn [fst snd]. set (c := Scalar 0 x). destruct (shaped_rest c (last os false)) as (D1 & D2 & D3 & D4 & D5). cbv zeta in *.
    rewrite (not_string _ _ TN W). rewrite andb_false_r. cbn [andb]. rewrite bind_when. unfold c. rewrite shaped_be. fold c.
    set (d := shaped c (with_be (last os false) deco0)) in *.
    assert (EM : forall B (kk : unit -> par B) b0 c0 q0 T2, pbind (when b0 (emit c0)) kk (going p1 t2 (t :: r) (last bs t1) q0 T2) = kk tt (going p1 t2 (t :: r) (last bs t1) (q0 ++ (if b0 then c0 else [])) T2)).
    { intros B kk [] c0 q0 T2; [reflexivity|]. cbn [when]. rewrite app_nil_r. reflexivity. }
    rewrite EM, bind_emit, D1. set (q1 := (o ++ _) ++ _).
    destruct (prefix_syms U UL UT n (proj1 (Forall_forall _ _) UT n NU) (members_sym [] b) (members_copy b [] WF) T0 T1 (q1 ++ [0x03] ++ le2 k)
      (S (length (sized (index_of T0) (members_sym [] b)))) S1 (extends_trans _ _ _ XT X1)) as (T2 & E2 & S2 & X2 & I2).
    { intros m I. split; [now apply T0I|]. 
      assert (J : In (n ++ [46] ++ m) (sym_refs (map (qualified n) (members_sym [] b)))).
      { clear - I. induction (members_sym [] b) as [|[[op ns] a] l IH]; [destruct I|]. cbn [sym_refs flat_map map] in *. apply in_app_iff in I as [I|I]; apply in_or_app; [left|right; apply IH; exact I].
        cbn [qualified fst snd] in *. now apply (in_map (fun z => n ++ [46] ++ z)). }
      rewrite members_sym_in in J. apply members_refs in J. destruct (NM (n ++ [46] ++ m)) as (A & B); [right; exact J|]. split; [exact A|]. lia. }
    { lia. }
    assert (BODY : forall B (kk : bool -> par B), pbind
        (let% sd := get (fun p0 => find_struct (p_structs p0) (ttext t0)) in
         let% ed := get (fun p0 => find_enum (p_enums p0) (ttext t0)) in
         match sd, ed with
         | Some code, _ => struct_field t0 t1 d 0 k code
         | None, Some e => enum_field E d 0 k e ;; ret true
         | None, None => basic_field E t0 d 0 k
         end) kk (going p1 t2 (t :: r) (last bs t1) q1 T1) =
         kk true (going p1 t2 (t :: r) (last bs t1) (((q1 ++ [0x03] ++ le2 k) ++ sized (index_of T2) (members_sym (inside [] n) b)) ++ [0x04]) T2)).
    { intros B kk. rewrite bind_bind, bind_get, bind_bind, bind_get.
      change (p_structs (going p1 t2 (t :: r) (last bs t1) q1 T1)) with (p_structs p).
      rewrite (word_text _ _ _ W), FS. unfold struct_field. rewrite bind_bind, bind_get.
      change (p_sname (going p1 t2 (t :: r) (last bs t1) q1 T1)) with (p_sname p). rewrite (word_text _ _ _ W).
      assert (NS : match p_sname p with Some n0 => same_text s n0 | None => false end = false).
      { destruct (p_sname p) as [n0|]; [|reflexivity]. unfold same_text. destruct list_eq_dec as [EE|EE]; [|reflexivity]. congruence. }
      rewrite NS, D2, D3, D4. change (0 <? 0) with false. cbn [some]. rewrite !bind_bind. cbn [when]. 
      repeat (rewrite ?bind_bind, bind_ret; cbv beta). rewrite ?bind_bind, bind_emit.
      rewrite ?bind_bind. unfold pbind at 1.
      change (p_strs (going p1 t2 (t :: r) (last bs t1) (q1 ++ [3] ++ le2 k) T1)) with T1.
      change (p_out (going p1 t2 (t :: r) (last bs t1) (q1 ++ [3] ++ le2 k) T1)) with (q1 ++ [3] ++ le2 k).
      rewrite (word_text _ _ _ W0), firstn_all2 by (unfold lenN in NL; lia). rewrite E2, members_sym_in. 
      match goal with |- pbind _ _ ?g = _ => change g with (going p1 t2 (t :: r) (last bs t1) ((q1 ++ [3] ++ le2 k) ++ sized (index_of T2) (members_sym (inside [] n) b)) T2) end.
      rewrite ?bind_bind, bind_emit. cbv beta. rewrite ?bind_ret. reflexivity. }
    rewrite BODY. cbn [when]. rewrite EM. rewrite bind_con; [|exact (word_kind _ _ _ W1)|auto].
    exists T2. split.
    - unfold q1. replace (last (t0 :: t1 :: bs ++ [t2]) pv) with t2 by (change (t0 :: t1 :: bs ++ [t2]) with ((t0 :: t1 :: bs) ++ [t2]); now rewrite last_last).
      rewrite (nest_code _ os x n b false). cbv zeta. fold c. fold d. rewrite (extends_index T1 T2 n X2 I1). fold k.
      rewrite <- !app_assoc. destruct (last os false); cbn [when]; [|rewrite ?app_nil_r; reflexivity].
      match goal with |- emit ?c (going ?p ?a ?x ?v ?o ?s) = _ => change (emit c (going p a x v o s)) with (POk tt (going p a x v (o ++ c) s)) end.
      now rewrite <- !app_assoc.
    - split; [exact S2|]. split; [eapply extends_trans; eauto|]. intros m I. apply member_refs in I. cbn [member_names] in I. destruct I as [<-|I].
      + eapply extends_in; eauto.
      + apply I2. rewrite members_sym_in. now apply members_refs.
  Qed.

  Lemma flat_sym id f : sized id (member_sym [] (Flat f)) = code (field_instrs id f).
  Proof. unfold sized. f_equal. rewrite field_sym_ok. cbn [member_sym app]. unfold smarked, field_sym. destruct (f_big f); [reflexivity|]. cbn [app]. now rewrite app_nil_r. Qed.
  Lemma member_run E env m ws : member_read env m ws -> forall fuel ts p y x pv o T t r,
    map word_of ts = ws -> y :: x = ts ++ t :: r -> Forall plain (ts ++ [t]) -> (length ws <= S fuel)%nat ->
    p_err p = false -> p_bitmode p = false -> plain_types p -> p_enums p = [] -> env_ok env p T ->
    ~ In (member_name m) (p_fields p) -> Forall text (p_fields p) -> stage U T ->
    (forall z, In z (member_names [] m) -> In z U /\ lenN z <= 255) ->
    exists T', parse_field E (S fuel) (going p y x pv o T) =
      POk tt (going (set_struct (p_sname p) (p_fields p ++ [member_name m]) p) t r (last ts pv) (o ++ sized (index_of T') (member_sym [] m)) T') /\
      stage U T' /\ extends T T' /\ (forall z, In z (sym_refs (member_sym [] m)) -> In z T').
  Proof.
    intros [f ws' FR|os o' x' n b s w OR IE XR] fuel ts p y x pv o T t r M X P L ER BM PS PE KE NI FT ST NM; cbn [member_name] in *.
    - destruct (NM (f_name f)) as (NU & _); [left; reflexivity|]. destruct (stage_add U UL UT T _ ST NU) as (S1 & L1 & X1 & I1).
      exists (table1 T (f_name f)). split; [|split; [exact S1|split; [exact X1|]]].
      + rewrite flat_sym. pose proof (field_len _ _ FR). apply (field_run E f ws' FR); auto; [lia|exact (proj1 (proj2 ST))].
      + intros z I. apply member_refs in I. destruct I as [<-|[]]. exact I1.
    - apply map_eq_app in M as (t1 & t2 & -> & M1 & M2). destruct t2 as [|h t2]; [discriminate M2|].
      assert (KH : tk h = TIdentifier) by (cbn [map app] in M2; apply cons_inv in M2 as (W & _); exact (word_kind _ _ _ W)).
      assert (KY : tk y = TAt \/ tk y = TIdentifier).
      { destruct t1 as [|z t1]; [injection X as -> _; auto|]. injection X as -> _. left. pose proof (order_at _ _ _ OR) as K. rewrite <- M1 in K. exact K. }
      assert (PH : Forall plain ((h :: t2) ++ [t])) by (rewrite <- app_assoc in P; apply Forall_app in P; apply P).
      destruct (nest_run E env os x' n b s w IE XR (h :: t2) p h (t2 ++ t :: r) (last t1 pv) o T t r M2 eq_refl PH KE NI FT ST NM) as (T' & RUN & REST).
      exists T'. split; [|exact REST]. cbn [parse_field]. rewrite bind_get. change (p_err (going p y x pv o T)) with (p_err p). rewrite ER.
      rewrite !app_length, (orders_len _ _ _ OR) in L. cbn [length] in L.
      destruct fuel as [|fuel]; [lia|]. rewrite bind_skip by (destruct KY as [K|K]; rewrite K; discriminate).
      rewrite bind_get. change (p_cur (going p y x pv o T)) with y.
      assert (EQ : forall (m1 m2 m3 : par unit), match tk y with TSwitch => m1 | TIf => m2 | _ => m3 end = m3) by (intros; destruct KY as [K|K]; now rewrite K).
      rewrite EQ. clear EQ.
      rewrite (bind_ok (decorators E (S fuel) deco0) _ _ (all_be os deco0) (going p h (t2 ++ t :: r) (last t1 pv) o T)).
      + rewrite all_be_last. rewrite RUN. now rewrite last_two.
      + apply (decorators_run E _ o' OR t1); auto; try (rewrite KH; discriminate); try lia.
        * now rewrite X, <- app_assoc.
        * rewrite <- app_assoc in P. apply Forall_app in P as (A & Q). apply Forall_app. split; auto. constructor; auto. exact (Forall_inv Q).
  Qed.
End Members.
