(** The tool's callback on documents with structures. *)
From Coq Require Import ZifyBool ZifyNat ZifyN.
From Verif Require Import Base SpecBytes LemBase ModelWord LemWord ModelFloat ModelTrans ModelVM SpecVM LemAct LemSafe LemRun LemStr
  ModelImage SpecPacket SpecMessage LemSend LemMessage ModelJson SpecJson LemJnum LemJson SpecNest LemNest LemNestRun SpecNestJson.
Ltac Zify.zify_post_hook ::= Z.div_mod_to_equations.

Scheme presents_m := Minimality for presents Sort Prop
  with object_m := Minimality for object Sort Prop
  with objects_m := Minimality for objects Sort Prop
  with has_m := Minimality for has Sort Prop.
Combined Scheme presents_ind4 from presents_m, object_m, objects_m, has_m.

(** ** Paths *)
Lemma at_path_app p : forall j q, at_path j (p ++ q) = match at_path j p with Some c => at_path c q | None => None end.
Proof. induction p as [|i p IH]; intros j q; [reflexivity|]. cbn [app at_path]. destruct nth_error; [apply IH|reflexivity]. Qed.
Lemma get_member_in doc p l n v : at_path doc p = Some (JObj l) -> NoDup (map (fun m => fold_case (fst m)) l) -> In (n, v) l ->
  exists i, get_member doc p n = Some (p ++ [i]) /\ at_path doc (p ++ [i]) = Some v.
Proof.
  intros AP D I. destruct (find_in n v l D I 0) as (i & A & B). exists i. unfold get_member. rewrite AP, A. split; [reflexivity|].
  rewrite at_path_app, AP. cbn [at_path children]. now rewrite B.
Qed.
Lemma get_item_in doc q pre j js : at_path doc q = Some (JArr (pre ++ j :: js)) ->
  get_item doc q (lenN pre) = Some (q ++ [length pre]) /\ at_path doc (q ++ [length pre]) = Some j.
Proof.
  intros AP. unfold get_item. rewrite AP. cbn [children]. rewrite lenN_app, lenN_cons. destruct (N.ltb_spec (lenN pre) (lenN pre + (lenN js + 1))); [|lia].
  replace (N.to_nat (lenN pre)) with (length pre) by (unfold lenN; lia). split; [reflexivity|].
  rewrite at_path_app, AP. cbn [at_path children]. rewrite nth_error_app2, Nat.sub_diag by lia. reflexivity.
Qed.

(** ** States of the callback *)
Definition io_at (doc : json) (p : path) (st : list path) (A : list (path * N * N)) : ioctx := {| io_root := doc; io_stack := p :: st; io_arrays := A |}.
(** The innermost array began further out *)
Definition outside (A : list (path * N * N)) (st : list path) : Prop := match A with [] => True | (_, _, d) :: _ => d < lenN st end.
Lemma io_depth_at doc p st A : io_depth (io_at doc p st A) = lenN st.
Proof. unfold io_depth, io_at. cbn [io_stack]. rewrite lenN_cons. lia. Qed.
Lemma outside_no doc p st A : outside A st -> in_array (io_at doc p st A) = None.
Proof.
  intros O. unfold in_array. rewrite io_depth_at. change (io_arrays (io_at doc p st A)) with A. destruct A as [|((q, k), d) A]; [reflexivity|].
  cbn [outside] in O. destruct (N.eqb_spec (lenN st) d); [lia|reflexivity].
Qed.
Lemma inside_yes doc p st q k A : in_array (io_at doc p st ((q, k, lenN st) :: A)) = Some (q, k, A).
Proof. unfold in_array. rewrite io_depth_at. change (io_arrays (io_at doc p st ((q, k, lenN st) :: A))) with ((q, k, lenN st) :: A). cbv iota beta. now rewrite N.eqb_refl. Qed.
Lemma next_at doc p st q k d A : next_item (io_at doc p st ((q, k, d) :: A)) = io_at doc p st ((q, k + 1, d) :: A).
Proof. reflexivity. Qed.

(** The names given to the members *)
Section Names.
  Variables (names : list (list N)) (id : list N -> N).
  Fixpoint called (pre : list N) (m : member) : Prop :=
    key_name names (id (pre ++ member_name m)) = member_name m /\
    match m with Flat _ => True | Nest _ _ n b => every (called (inside pre n)) b end.
End Names.
Definition oks (t : list event) : Prop := Forall (fun ev => r_ok (snd ev) = true) t.

(** ** Encoding *)
Section Enc.
  Variables (names : list (list N)) (id : list N -> N) (doc : json).
  Notation plays' := (plays (jh Enc names)).

  Lemma enter_enc_array p st A q pre j js k : at_path doc q = Some (JArr (pre ++ j :: js)) -> lenN st <= 30 ->
    jh Enc names (io_at doc p st ((q, lenN pre, lenN st) :: A)) (enter_call k) =
    (io_at doc (q ++ [length pre]) (p :: st) ((q, lenN pre + 1, lenN st) :: A), accept).
  Proof.
    intros AT L. unfold jh, json_call. cbn [enter_call ask rq_op rq_key N.eqb Pos.eqb]. rewrite inside_yes. cbv iota beta.
    change (io_root (io_at doc p st _)) with doc. destruct (get_item_in doc q pre j js AT) as (G & _). rewrite G. rewrite next_at.
    change (io_stack (io_at doc p st ((q, lenN pre + 1, lenN st) :: A))) with (p :: st). rewrite lenN_cons. destruct (N.leb_spec 32 (lenN st + 1)); [lia|]. reflexivity.
  Qed.
  Lemma enter_enc_member p st A l n v k : at_path doc p = Some (JObj l) -> NoDup (map (fun m => fold_case (fst m)) l) -> In (n, v) l -> key_name names k = n ->
    outside A st -> lenN st <= 30 ->
    exists q, jh Enc names (io_at doc p st A) (enter_call k) = (io_at doc q (p :: st) A, accept) /\ at_path doc q = Some v.
  Proof.
    intros AT ND I KN O L. destruct (get_member_in doc p l n v AT ND I) as (i & G & AT'). exists (p ++ [i]). split; [|exact AT'].
    unfold jh, json_call. cbn [enter_call ask rq_op rq_key N.eqb Pos.eqb]. rewrite outside_no by exact O. cbv iota beta.
    change (io_root (io_at doc p st A)) with doc. change (io_current (io_at doc p st A)) with p. rewrite KN, G.
    change (io_stack (io_at doc p st A)) with (p :: st). rewrite lenN_cons. destruct (N.leb_spec 32 (lenN st + 1)); [lia|]. reflexivity.
  Qed.
  Lemma leave_enc q p st A : jh Enc names (io_at doc q (p :: st) A) leave_call = (io_at doc p st A, accept).
  Proof. reflexivity. Qed.
  Lemma open_enc p st A l n js rq : at_path doc p = Some (JObj l) -> NoDup (map (fun m => fold_case (fst m)) l) -> In (n, JArr js) l -> key_name names (rq_key rq) = n ->
    In (rq_op rq) [0x34; 0x35; 0x36; 0x37] -> lenN A < 31 ->
    exists q, jh Enc names (io_at doc p st A) rq = (io_at doc p st ((q, 0, lenN st) :: A), if is_prefix_op (rq_op rq) then store (lenN js) else accept) /\
      at_path doc q = Some (JArr js).
  Proof.
    intros AT ND I KN O L. destruct (get_member_in doc p l n _ AT ND I) as (i & G & AT'). exists (p ++ [i]). split; [|exact AT'].
    unfold jh. rewrite array_op_call by exact O. unfold array_start. change (io_root (io_at doc p st A)) with doc. change (io_current (io_at doc p st A)) with p.
    rewrite KN, G, AT'. change (io_arrays (io_at doc p st A)) with A. rewrite io_depth_at. destruct (N.leb_spec 31 (lenN A)); [lia|]. reflexivity.
  Qed.
  Lemma close_enc p st q k d A : jh Enc names (io_at doc p st ((q, k, d) :: A)) end_call = (io_at doc p st A, accept).
  Proof. reflexivity. Qed.

  Lemma each_enc k ty p st A q : 0x10 <= ty <= 0x1A ->
    forall vs js pre a, at_path doc q = Some (JArr a) -> a = pre ++ js -> Forall2 (shows_number ty) vs js -> Forall (number_ok ty) vs -> Forall (number_managed ty) vs ->
    exists t, gives_each k ty vs t /\ plays' (io_at doc p st ((q, lenN pre, lenN st) :: A)) t (io_at doc p st ((q, lenN a, lenN st) :: A)) /\ oks t.
  Proof.
    intros T. induction vs as [|v vs IH]; intros js pre a AT EA F OK M.
    - inversion F; subst. rewrite app_nil_r. exists []. repeat split; constructor.
    - inversion F as [|? j ? js' SJ F']; subst. pose proof (Forall_inv OK) as O1. pose proof (Forall_inv M) as M1.
      destruct (IH js' (pre ++ [j]) (pre ++ j :: js') AT ltac:(now rewrite <- app_assoc) F' (Forall_inv_tail OK) (Forall_inv_tail M)) as (t & G & P & OT).
      destruct (value_enc ty v j T O1 M1 SJ) as (x & EV & XV). destruct (get_item_in doc q pre j js' AT) as (GI & AJ).
      exists ((value_call k ty 0, store x) :: t). split; [constructor; auto|]. split; [|constructor; [reflexivity|exact OT]].
      econstructor; [|exact P]. unfold jh. rewrite value_op_call by (cbn [value_call ask rq_op]; lia). rewrite inside_yes. cbv iota beta.
      rewrite next_at. change (io_root (io_at doc p st _)) with doc. rewrite GI. cbv iota beta. rewrite AJ. cbn [value_call ask rq_op]. rewrite EV. cbn [bindR].
      rewrite lenN_app. reflexivity.
  Qed.

  Lemma flat_enc f d o pos old v p st A l pre : at_path doc p = Some (JObj l) -> NoDup (map (fun m => fold_case (fst m)) l) ->
    key_name names (id (pre ++ f_name f)) = f_name f -> In (f_name f, v) l -> shows (f_content f) d v ->
    content_wf (f_content f) -> datum_ok (f_content f) d -> managed o (f_content f) d -> outside A st -> lenN A < 31 ->
    exists t, gives (id (pre ++ f_name f)) pos old (f_content f) d t /\ plays' (io_at doc p st A) t (io_at doc p st A) /\ oks t.
  Proof.
    intros AP ND NM I SH WF OK M OUT LA. destruct (get_member_in doc p l _ _ AP ND I) as (i & GM & AT). set (k := id (pre ++ f_name f)) in *.
    assert (CALL : forall rq, rq_key rq = k -> 0x10 <= rq_op rq <= 0x33 -> forall r, encode_value (rq_op rq) (Some v) = Ok r -> jh Enc names (io_at doc p st A) rq = (io_at doc p st A, r)).
    { intros rq K B r E. unfold jh. rewrite value_op_call by exact B. rewrite outside_no by exact OUT. cbv iota beta.
      change (io_root (io_at doc p st A)) with doc. change (io_current (io_at doc p st A)) with p. rewrite K, NM, GM. cbv beta iota. rewrite AT, E. reflexivity. }
    assert (ARR : forall rq ty n vs js pos old, 0x10 <= ty <= 0x1A -> v = JArr js -> rq_key rq = k -> In (rq_op rq) [0x34; 0x35; 0x36; 0x37] ->
      Forall2 (shows_number ty) vs js -> Forall (number_ok ty) vs -> Forall (number_managed ty) vs -> vs <> [] -> ~ byte_type ty ->
      n = (if is_prefix_op (rq_op rq) then store (lenN vs) else accept) ->
      exists t, gives_all k ty pos old vs t /\ plays' (io_at doc p st A) ((rq, n) :: t) (io_at doc p st A) /\ oks ((rq, n) :: t)).
    { clear pos old. intros rq ty n vs js pos old T -> K B F O MM NE NB ->. destruct (open_enc p st A l (f_name f) js rq AP ND I ltac:(now rewrite K) B LA) as (q & JQ & AQ).
      destruct (each_enc k ty p st A q T vs js [] js AQ eq_refl F O MM) as (t & G & P & OT). assert (LL : lenN js = lenN vs) by (clear - F; induction F; [reflexivity|]; rewrite !lenN_cons; congruence).
      exists (t ++ [(end_call, accept)]). split; [now apply all_singly|]. rewrite LL in JQ. split.
      - eapply plays_more; [exact JQ|]. eapply plays_join; [exact P|]. eapply plays_more; [apply close_enc|constructor].
      - constructor; [cbn [snd]; now destruct (is_prefix_op _)|]. apply Forall_app. split; [exact OT|]. repeat constructor. }
    destruct (f_content f) as [ty [|n|w]|mx|w]; destruct d as [x|vs|cs]; cbn [shows datum_ok managed content_wf] in *; try contradiction.
    - destruct (value_enc ty x v ltac:(lia) OK M SH) as (y & EV & XV). exists [(value_call k ty 0, store y)]. split; [constructor; auto|]. split; [|repeat constructor].
      econstructor; [|constructor]. apply CALL; cbn [value_call ask rq_key rq_op]; auto. lia.
    - destruct SH as (js & -> & F). destruct OK as (L & B & OK). destruct M as (NE & NB & M). destruct WF as (T & _).
      destruct (ARR (ask k 0x34 (cvar 4 n) HCount) ty accept vs js pos old T eq_refl eq_refl ltac:(cbn; auto) F OK M NE NB eq_refl) as (t & G & P & OT).
      exists ((ask k 0x34 (cvar 4 n) HCount, accept) :: t). split; [constructor; auto|]. auto.
    - destruct SH as (js & -> & F). destruct OK as (L & B & OK). destruct M as (NE & NB & M). destruct WF as (T & CW).
      destruct (ARR (ask k (array_op w) (cvar w 0) HCount) ty (store (lenN vs)) vs js (pos + w) (skipn (N.to_nat w) old) T eq_refl eq_refl) as (t & G & P & OT); auto.
      + cbn [ask rq_op]. destruct CW as [-> |[-> | ->]]; cbn [array_op In]; auto.
      + cbn [ask rq_op]. destruct CW as [-> |[-> | ->]]; reflexivity.
      + exists ((ask k (array_op w) (cvar w 0) HCount, store (lenN vs)) :: t). split; [|auto]. constructor; auto. unfold answer. cbn [r_val store]. now apply N.mod_small.
    - subst v. destruct OK as (TX & L). exists [(ask k 0x30 PStr (HString 0x30 mx), store_str cs)]. split; [|split; [|repeat constructor]].
      + replace cs with (cut mx cs) at 1 by (unfold cut, lenN in *; apply firstn_all2; lia). apply (give_text _ _ _ _ cs); auto.
      + econstructor; [|constructor]. apply CALL; cbn [ask rq_op rq_key]; auto. lia.
    - subst v. destruct OK as (_ & L), M as (TX & M). exists [(ask k (string_op w) PStr (HString (string_op w) (2 ^ (8 * w) - 1)), store_str cs)]. split; [|split; [|repeat constructor]].
      + replace cs with (cut (2 ^ (8 * w) - 1) cs) at 1 by (unfold cut, lenN in *; apply firstn_all2; lia). apply (give_counted_text _ _ _ _ cs); auto.
      + econstructor; [|constructor]. apply CALL; cbn [ask rq_op rq_key]; auto; destruct WF as [-> |[-> | ->]]; cbn [string_op]; try lia; reflexivity.
  Qed.

  Lemma objects_len b gs l : objects b gs l -> lenN l = lenN gs.
  Proof. induction 1; [reflexivity|]. rewrite !lenN_cons. congruence. Qed.
  Lemma max_in (x : N) l : In x l -> x <= fold_right N.max 0 l.
  Proof. induction l as [|y l IH]; [intros []|]. cbn [fold_right]. intros [-> |I]; [lia|]. specialize (IH I). lia. Qed.

  Lemma talks_enc :
    (forall m t v, presents m t v -> forall o pre pos old p st A l, at_path doc p = Some (JObj l) -> NoDup (map (fun m => fold_case (fst m)) l) -> In (member_name m, v) l ->
      called names id pre m -> member_plain m -> tree_ok m t -> tree_managed m t o -> outside A st -> lenN A + depth m <= 8 -> lenN st + nesting m <= 31 ->
      exists z tt, said Enc id pre pos old m t z tt /\ plays' (io_at doc p st A) tt (io_at doc p st A) /\ oks tt) /\
    (forall b g j, object b g j -> forall o pre pos old p st A, at_path doc p = Some j -> every (called names id pre) b -> every member_plain b -> every2 tree_ok b g ->
      members_managed b g o -> outside A st -> lenN A + fold_right N.max 0 (map depth b) <= 8 -> lenN st + fold_right N.max 0 (map nesting b) <= 31 ->
      exists z tt, said_members Enc id pre pos old b g z tt /\ plays' (io_at doc p st A) tt (io_at doc p st A) /\ oks tt) /\
    (forall b gs l, objects b gs l -> forall n o pre pos old q a ap p st A, at_path doc q = Some (JArr a) -> a = ap ++ l -> every (called names id (inside pre n)) b ->
      every member_plain b -> every (fun g => every2 tree_ok b g) gs -> along (fun g => members_managed b g) (fun g o => snd (members_bytes b g o)) gs o ->
      lenN A + 1 + fold_right N.max 0 (map depth b) <= 8 -> lenN st + 1 + fold_right N.max 0 (map nesting b) <= 31 ->
      exists z tt, said_groups Enc id pre pos old n b gs z tt /\ plays' (io_at doc p st ((q, lenN ap, lenN st) :: A)) tt (io_at doc p st ((q, lenN a, lenN st) :: A)) /\ oks tt) /\
    (forall b ts l, has b ts l -> forall o pre pos old p st A, at_path doc p = Some (JObj l) -> NoDup (map (fun m => fold_case (fst m)) l) -> every (called names id pre) b ->
      every member_plain b -> every2 tree_ok b ts -> members_managed b ts o -> outside A st -> lenN A + fold_right N.max 0 (map depth b) <= 8 ->
      lenN st + fold_right N.max 0 (map nesting b) <= 31 ->
      exists z tt, said_members Enc id pre pos old b ts z tt /\ plays' (io_at doc p st A) tt (io_at doc p st A) /\ oks tt).
  Proof.
    apply presents_ind4.
    - intros f d j SH o pre pos old p st A l AP ND I (CN & _) W OK M OUT DA _. cbn [member_plain tree_ok tree_managed member_name] in *.
      destruct (flat_enc f d _ pos old j p st A l pre AP ND CN I SH W OK M OUT ltac:(lia)) as (t & G & P & OT). exists (size (f_content f) d), t. split; [now constructor|]. auto.
    - intros os n b g j OB IH o pre pos old p st A l AP ND I (CN & CB) (WX & W) (XO & TO & _) (_ & M) OUT DA NS. cbn [member_name depth nesting extent_depth along] in *.
      destruct (enter_enc_member p st A l n j (id (pre ++ n)) AP ND I CN OUT ltac:(lia)) as (q & JQ & AQ).
      destruct (IH _ (inside pre n) pos old q (p :: st) A AQ CB W TO (proj1 M)) as (z & t & SM & P & OT).
      { destruct A as [|((a, c), d) A]; [exact Logic.I|]. cbn [outside] in *. rewrite lenN_cons. lia. } { lia. } { rewrite lenN_cons. lia. }
      exists (0 + (z + 0)), ([] ++ ((enter_call (id (pre ++ n)), accept) :: t ++ (leave_call, accept) :: []) ++ []). split; [|split].
      + apply (said_nest Enc id pre pos old os One n b [g] (z + 0)); [reflexivity| |reflexivity]. apply said_group; auto; [|constructor]. cbn [extent_size]. now rewrite N.add_0_r.
      + cbn [app]. rewrite app_nil_r. eapply plays_more; [exact JQ|]. eapply plays_join; [exact P|]. eapply plays_more; [apply leave_enc|constructor].
      + cbn [app]. rewrite app_nil_r. constructor; [reflexivity|]. apply Forall_app. split; [exact OT|]. repeat constructor.
    - intros os x n b gs js NX OB IH o pre pos old p st A l AP ND I (CN & CB) (WX & W) (XO & TO) (NE & M) OUT DA NS. cbn [member_name depth nesting] in *.
      assert (ED : extent_depth x = 1) by (destruct x; [contradiction|reflexivity|reflexivity]). rewrite ED in DA. pose proof (objects_len _ _ _ OB) as LL.
      assert (REST : forall rq r, rq_key rq = id (pre ++ n) -> In (rq_op rq) [0x34; 0x35; 0x36; 0x37] -> r = (if is_prefix_op (rq_op rq) then store (lenN gs) else accept) ->
        counts Enc (id (pre ++ n)) x (lenN gs) [(rq, r)] -> exists z tt, said Enc id pre pos old (Nest os x n b) (Groups gs) z tt /\ plays' (io_at doc p st A) tt (io_at doc p st A) /\ oks tt).
      { intros rq r K B ER C. destruct (open_enc p st A l n js rq AP ND I ltac:(now rewrite K) B ltac:(lia)) as (q & JQ & AQ).
        destruct (IH n _ pre (pos + extent_size x) (skipn (N.to_nat (extent_size x)) old) q js [] p st A AQ eq_refl CB W TO M) as (z & t & SG & P & OT); [lia|lia|].
        exists (extent_size x + z), ([(rq, r)] ++ t ++ [(end_call, accept)]). split; [|split].
        - apply said_nest; auto. destruct x; [contradiction| |]; cbn [ends]; (destruct (N.eqb_spec (lenN gs) 0) as [Z|_]; [destruct gs; [contradiction|rewrite lenN_cons in Z; lia]|]); exists accept; auto.
        - cbn [app]. rewrite LL in JQ. eapply plays_more; [rewrite ER; exact JQ|]. eapply plays_join; [exact P|]. eapply plays_more; [apply close_enc|constructor].
        - cbn [app]. constructor; [cbn [snd]; rewrite ER; now destruct (is_prefix_op _)|]. apply Forall_app. split; [exact OT|]. repeat constructor. }
      destruct x as [|m|w]; [contradiction| |]; cbn [extent_ok] in XO.
      + apply (REST (ask (id (pre ++ n)) 0x34 (cvar 4 m) HCount) accept); auto; [cbn; auto|]. exists accept. repeat split.
      + cbn [extent_wf] in WX. apply (REST (ask (id (pre ++ n)) (array_op w) (cvar w 0) HCount) (store (lenN gs))); auto.
        * cbn [In ask rq_op] in *. destruct WX as [<- |[<- |[<- |[]]]]; cbn [array_op]; auto.
        * cbn [In ask rq_op] in *. destruct WX as [<- |[<- |[<- |[]]]]; reflexivity.
        * exists (store (lenN gs)). split; [reflexivity|]. split; [|reflexivity]. unfold answer. cbn [r_val store]. apply N.mod_small. apply XO.
    - intros b g l ND H IH o pre pos old p st A AP CB W TO M OUT DA NS. eapply IH; eauto.
    - intros b n o pre pos old q a ap p st A AQ -> CB W TO M DA NS. rewrite app_nil_r. exists 0, []. repeat split; constructor.
    - intros b g gs j l OB IHO OBS IH n o pre pos old q a ap p st A AQ EA CB W TO M DA NS. cbn [every along] in TO, M. destruct TO as (TO1 & TO), M as (M1 & M).
      subst a. destruct (get_item_in doc q ap j l AQ) as (_ & AJ).
      destruct (IHO _ (inside pre n) pos old (q ++ [length ap]) (p :: st) ((q, lenN ap + 1, lenN st) :: A) AJ CB W TO1 M1) as (z1 & t1 & S1 & P1 & O1).
      { cbn [outside]. rewrite lenN_cons. lia. } { rewrite lenN_cons. lia. } { rewrite lenN_cons. lia. }
      destruct (IH n _ pre (pos + z1) (skipn (N.to_nat z1) old) q (ap ++ j :: l) (ap ++ [j]) p st A AQ ltac:(now rewrite <- app_assoc) CB W TO M DA NS) as (z2 & t2 & S2 & P2 & O2).
      exists (z1 + z2), ((enter_call (id (pre ++ n)), accept) :: t1 ++ (leave_call, accept) :: t2). split; [now apply said_group|]. split.
      + eapply plays_more; [apply (enter_enc_array p st A q ap j l); [exact AQ|lia]|]. eapply plays_join; [exact P1|]. eapply plays_more; [apply leave_enc|].
        rewrite lenN_app in P2. exact P2.
      + constructor; [reflexivity|]. apply Forall_app. split; [exact O1|]. constructor; [reflexivity|exact O2].
    - intros l o pre pos old p st A AP ND CB W TO M OUT DA NS. exists 0, []. repeat split; constructor.
    - intros m b t ts v l I PR IHP H IH o pre pos old p st A AP ND CB W TO M OUT DA NS. cbn [every every2 map fold_right] in *. unfold members_managed in M. cbn [along2] in M.
      destruct CB as (C1 & CB), W as (W1 & W), TO as (T1 & TO), M as (M1 & M).
      destruct (IHP _ pre pos old p st A l AP ND I C1 W1 T1 M1 OUT ltac:(lia) ltac:(lia)) as (z1 & t1 & S1 & P1 & O1).
      destruct (IH _ pre (pos + z1) (skipn (N.to_nat z1) old) p st A AP ND CB W TO M OUT ltac:(lia) ltac:(lia)) as (z2 & t2 & S2 & P2 & O2).
      exists (z1 + z2), (t1 ++ t2). split; [now constructor|]. split; [eapply plays_join; eauto|]. apply Forall_app. auto.
  Qed.
End Enc.

(** ** Decoding *)

(** [R] is a document with one value left open, at the path [p] *)
Definition hole (p : path) (R : json -> json) : Prop :=
  (forall j q, at_path (R j) (p ++ q) = at_path j q) /\ (forall j q key v, add_at (R j) (p ++ q) key v = R (add_at j q key v)).
Lemma hole_root : hole [] (fun j => j).
Proof. split; reflexivity. Qed.
Lemma nth_last {A} (l : list A) x : nth_error (l ++ [x]) (length l) = Some x.
Proof. rewrite nth_error_app2, Nat.sub_diag by lia. reflexivity. Qed.
Lemma hole_obj p R l key : hole p R -> hole (p ++ [length l]) (fun j => R (JObj (l ++ [(key, j)]))).
Proof.
  intros (A & B). split; intros j q; [|intros k v]; rewrite <- app_assoc; cbn [app].
  - rewrite A. cbn [at_path children]. rewrite map_app, <- (map_length snd l). cbn [map snd]. now rewrite nth_last.
  - rewrite B. cbn [add_at]. now rewrite change_last.
Qed.
Lemma hole_arr p R a : hole p R -> hole (p ++ [length a]) (fun j => R (JArr (a ++ [j]))).
Proof.
  intros (A & B). split; intros j q; [|intros k v]; rewrite <- app_assoc; cbn [app].
  - rewrite A. cbn [at_path children]. now rewrite nth_last.
  - rewrite B. cbn [add_at]. now rewrite change_last.
Qed.
Lemma hole_add p R j key v : hole p R -> add_at (R j) p key v = R (add_at j [] key v).
Proof. intros (_ & B). specialize (B j [] key v). now rewrite app_nil_r in B. Qed.
Lemma hole_last_obj p R l key v : hole p R -> last_child (R (JObj (l ++ [(key, v)]))) p = p ++ [length l].
Proof. intros (A & _). unfold last_child. pose proof (A (JObj (l ++ [(key, v)])) []) as X. rewrite app_nil_r in X. rewrite X. cbn [at_path children]. rewrite map_length, app_length. cbn [length]. do 2 f_equal. lia. Qed.
Lemma hole_last_arr p R a v : hole p R -> last_child (R (JArr (a ++ [v]))) p = p ++ [length a].
Proof. intros (A & _). unfold last_child. pose proof (A (JArr (a ++ [v])) []) as X. rewrite app_nil_r in X. rewrite X. cbn [at_path children]. rewrite app_length. cbn [length]. do 2 f_equal. lia. Qed.

Section Dec.
  Variables (names : list (list N)) (id : list N -> N).
  Notation plays' := (plays (jh Dec names)).

  Lemma enter_dec_array p st A q R a k x : hole q R -> lenN st <= 30 ->
    jh Dec names (io_at (R (JArr a)) p st ((q, k, lenN st) :: A)) (enter_call x) =
    (io_at (R (JArr (a ++ [JObj []]))) (q ++ [length a]) (p :: st) ((q, k + 1, lenN st) :: A), accept).
  Proof.
    intros HR L. unfold jh, json_call. cbn [enter_call ask rq_op rq_key N.eqb Pos.eqb]. change (string_ty 3) with false. cbv iota. rewrite inside_yes. cbv iota beta zeta.
    change (io_root (io_at (R (JArr a)) p st _)) with (R (JArr a)). rewrite hole_add by exact HR. cbn [add_at]. rewrite hole_last_arr by exact HR.
    change (io_stack (next_item (with_root (io_at ?r p st ?X) ?y))) with (p :: st). rewrite lenN_cons. destruct (N.leb_spec 32 (lenN st + 1)); [lia|]. reflexivity.
  Qed.
  Lemma enter_dec_member p st A R l n k : hole p R -> key_name names k = n -> outside A st -> lenN st <= 30 ->
    jh Dec names (io_at (R (JObj l)) p st A) (enter_call k) = (io_at (R (JObj (l ++ [(n, JObj [])]))) (p ++ [length l]) (p :: st) A, accept).
  Proof.
    intros HR KN O L. unfold jh, json_call. cbn [enter_call ask rq_op rq_key N.eqb Pos.eqb]. change (string_ty 3) with false. cbv iota. rewrite outside_no by exact O. cbv iota beta zeta.
    change (io_root (io_at (R (JObj l)) p st A)) with (R (JObj l)). change (io_current (io_at (R (JObj l)) p st A)) with p. rewrite KN, hole_add by exact HR. cbn [add_at].
    rewrite hole_last_obj by exact HR. change (io_stack (with_root (io_at ?r p st A) ?y)) with (p :: st). rewrite lenN_cons. destruct (N.leb_spec 32 (lenN st + 1)); [lia|]. reflexivity.
  Qed.
  Lemma leave_dec doc q p st A : jh Dec names (io_at doc q (p :: st) A) leave_call = (io_at doc p st A, accept).
  Proof. reflexivity. Qed.
  Lemma open_dec p st A R l n rq : hole p R -> key_name names (rq_key rq) = n -> In (rq_op rq) [0x34; 0x35; 0x36; 0x37] -> lenN A < 31 ->
    jh Dec names (io_at (R (JObj l)) p st A) rq = (io_at (R (JObj (l ++ [(n, JArr [])]))) p st ((p ++ [length l], 0, lenN st) :: A), accept).
  Proof.
    intros HR KN O L. unfold jh. replace (string_ty (rq_op rq)) with false by (cbn [In] in O; destruct O as [<-|[<-|[<-|[<-|[]]]]]; reflexivity).
    rewrite array_op_call by exact O. unfold array_start. change (io_arrays (io_at ?r p st A)) with A. destruct (N.leb_spec 31 (lenN A)); [lia|]. cbv zeta.
    change (io_root (io_at (R (JObj l)) p st A)) with (R (JObj l)). change (io_current (io_at (R (JObj l)) p st A)) with p. rewrite KN, hole_add by exact HR. cbn [add_at].
    rewrite hole_last_obj by exact HR. rewrite io_depth_at. reflexivity.
  Qed.
  Lemma close_dec doc p st q k d A : jh Dec names (io_at doc p st ((q, k, d) :: A)) end_call = (io_at doc p st A, accept).
  Proof. reflexivity. Qed.

  Lemma each_dec b k ty p st A q R : 0x10 <= ty <= 0x1A -> hole q R -> forall vs a n, Forall (number_ok ty) vs -> Forall (number_managed ty) vs ->
    exists t js m, told_each k ty vs t /\ plays' (io_at (R (JArr a)) p st ((q, n, lenN st) :: A)) t (io_at (R (JArr (a ++ js))) p st ((q, m, lenN st) :: A)) /\
      Forall2 (shows_number ty) vs js /\ Forall (heard b) t.
  Proof.
    intros T HR. induction vs as [|v vs IH]; intros a n OK M.
    - exists [], [], n. rewrite app_nil_r. repeat split; constructor.
    - destruct (value_dec [] LE ty v T (Forall_inv OK) (Forall_inv M)) as (j & DV & SH).
      destruct (IH (a ++ [j]) (n + 1) (Forall_inv_tail OK) (Forall_inv_tail M)) as (t & js & m & G & P & F & H).
      exists ((value_call k ty v, accept) :: t), (j :: js), m. split; [now constructor|]. split; [|split; [now constructor|]].
      + econstructor; [|rewrite <- app_assoc in P; exact P]. unfold jh. change (rq_op (value_call k ty v)) with ty.
        replace (string_ty ty) with false by (unfold string_ty; lia). rewrite value_op_call by (change (rq_op (value_call k ty v)) with ty; lia).
        change (rq_op (value_call k ty v)) with ty. change (rq_pl (value_call k ty v)) with (cvar (width ty) v).
        rewrite DV. cbn [bindR]. unfold put_value. rewrite inside_yes. cbv iota beta. change (io_root (io_at (R (JArr a)) p st _)) with (R (JArr a)). rewrite hole_add by exact HR. reflexivity.
      + constructor; [|exact H]. split; [reflexivity|]. unfold readable. cbn [fst value_call ask rq_op].
        assert (C : ty = 0x10 \/ ty = 0x11 \/ ty = 0x12 \/ ty = 0x13 \/ ty = 0x14 \/ ty = 0x15 \/ ty = 0x16 \/ ty = 0x17 \/ ty = 0x18 \/ ty = 0x19 \/ ty = 0x1A) by lia.
        clear -C. repeat (destruct C as [-> |C]; [exact I|]). rewrite C. exact I.
  Qed.

  Lemma flat_dec f d o l pf rest p st A R pre : hole p R -> key_name names (id (pre ++ f_name f)) = f_name f ->
    content_wf (f_content f) -> datum_ok (f_content f) d -> managed o (f_content f) d -> outside A st -> lenN A < 31 ->
    let b := pf ++ datum_bytes o (f_content f) d ++ rest in
    exists t j, told (id (pre ++ f_name f)) (lenN pf) (f_content f) d t /\
      plays' (io_at (R (JObj l)) p st A) t (io_at (R (JObj (l ++ [(f_name f, j)]))) p st A) /\ shows (f_content f) d j /\ Forall (heard b) t.
  Proof.
    intros HR NM WF OK M OUT LA b. set (k := id (pre ++ f_name f)) in *.
    assert (PUT : forall key j, key = k -> put_value names (io_at (R (JObj l)) p st A) key j = io_at (R (JObj (l ++ [(f_name f, j)]))) p st A).
    { intros key j ->. unfold put_value. rewrite outside_no by exact OUT. cbv iota beta. change (io_root (io_at (R (JObj l)) p st A)) with (R (JObj l)).
      change (io_current (io_at (R (JObj l)) p st A)) with p. rewrite NM, hole_add by exact HR. reflexivity. }
    assert (CALL : forall rq j, rq_key rq = k -> 0x10 <= rq_op rq <= 0x1A -> decode_value [] LE (rq_op rq) (rq_pl rq) = Ok (Some j) ->
      jh Dec names (io_at (R (JObj l)) p st A) rq = (io_at (R (JObj (l ++ [(f_name f, j)]))) p st A, accept)).
    { intros rq j K B E. unfold jh. replace (string_ty (rq_op rq)) with false by (unfold string_ty; lia). rewrite value_op_call by lia. rewrite E. cbn [bindR]. now rewrite PUT. }
    assert (STR : forall rq, rq_key rq = k -> string_ty (rq_op rq) = true ->
      jh Dec names (io_at (R (JObj l)) p st A) rq = (io_at (R (JObj (l ++ [(f_name f, JStr (chars_of (rq_pl rq)))]))) p st A, accept)).
    { intros rq K B. unfold jh. rewrite B. now rewrite PUT. }
    assert (ALL : forall rq ty vs pos, rq_key rq = k -> In (rq_op rq) [0x34; 0x35; 0x36; 0x37] -> 0x10 <= ty <= 0x1A -> Forall (number_ok ty) vs -> Forall (number_managed ty) vs -> vs <> [] -> ~ byte_type ty ->
      exists t js, told_all k ty pos vs t /\ plays' (io_at (R (JObj l)) p st A) ((rq, accept) :: t) (io_at (R (JObj (l ++ [(f_name f, JArr js)]))) p st A) /\ Forall2 (shows_number ty) vs js /\ Forall (heard b) ((rq, accept) :: t)).
    { intros rq ty vs pos K B T O MM NE NB. pose proof (open_dec p st A R l (f_name f) rq HR ltac:(now rewrite K) B LA) as JQ.
      destruct (each_dec b k ty p st A (p ++ [length l]) (fun j => R (JObj (l ++ [(f_name f, j)]))) T (hole_obj p R l (f_name f) HR) vs [] 0 O MM) as (t & js & m & G & P & F & H).
      exists (t ++ [(end_call, accept)]), js. split; [now apply tall_singly|]. split; [|split; [exact F|]].
      - eapply plays_more; [exact JQ|]. eapply plays_join; [exact P|]. eapply plays_more; [apply close_dec|constructor].
      - constructor; [|apply Forall_app; split; [exact H|repeat constructor]]. split; [reflexivity|]. unfold readable. cbn [fst]. cbn [In] in B. destruct B as [<-|[<-|[<-|[<-|[]]]]]; exact I. }
    destruct (f_content f) as [ty [|n|w]|mx|w]; destruct d as [x|vs|cs]; cbn [datum_ok managed content_wf datum_bytes] in *; try contradiction.
    - destruct (value_dec [] LE ty x ltac:(lia) OK M) as (j & DV & SH). exists [(value_call k ty x, accept)], j. split; [constructor; auto|].
      split; [econstructor; [|constructor]; apply CALL; auto; cbn; lia|]. split; [exact SH|]. constructor; [|constructor]. split; [reflexivity|].
      unfold readable. cbn [fst value_call ask rq_op]. destruct WF as (T & _).
      assert (C : ty = 0x10 \/ ty = 0x11 \/ ty = 0x12 \/ ty = 0x13 \/ ty = 0x14 \/ ty = 0x15 \/ ty = 0x16 \/ ty = 0x17 \/ ty = 0x18 \/ ty = 0x19 \/ ty = 0x1A) by lia.
      clear -C. repeat (destruct C as [-> |C]; [exact I|]). rewrite C. exact I.
    - destruct OK as (L & B & OK). destruct M as (NE & NB & M). destruct WF as (T & _).
      destruct (ALL (ask k 0x34 (cvar 4 n) HCount) ty vs (lenN pf) eq_refl ltac:(cbn; auto) T OK M NE NB) as (t & js & G & P & F & H).
      exists ((ask k 0x34 (cvar 4 n) HCount, accept) :: t), (JArr js). split; [constructor; auto|]. split; [exact P|]. split; [exists js; auto|exact H].
    - destruct OK as (L & B & OK). destruct M as (NE & NB & M). destruct WF as (T & CW).
      destruct (ALL (ask k (array_op w) (cvar w (lenN vs)) HCount) ty vs (lenN pf + w) eq_refl ltac:(cbn [ask rq_op]; destruct CW as [-> |[-> | ->]]; cbn [array_op In]; auto) T OK M NE NB) as (t & js & G & P & F & H).
      exists ((ask k (array_op w) (cvar w (lenN vs)) HCount, accept) :: t), (JArr js). split; [constructor; auto|]. split; [exact P|]. split; [exists js; auto|exact H].
    - destruct OK as (TX & L). exists [(ask k 0x30 (PBuf (lenN pf) cs) (HString 0x30 mx), accept)], (JStr cs). split; [constructor; auto|].
      split; [econstructor; [|constructor]; apply STR; reflexivity|]. split; [reflexivity|]. constructor; [|constructor]. split; [reflexivity|].
      intros e. unfold decode_value. cbn [fst ask rq_op rq_pl pos_of chars_of]. unfold b, lenN. rewrite Nat2N.id, skipn_app, skipn_all, Nat.sub_diag. cbn [app skipn].
      rewrite <- app_assoc. cbn [app]. now rewrite c_string_text.
    - destruct OK as (_ & L), M as (TX & M). exists [(ask k (string_op w) (PBuf (lenN pf + w) cs) (HString (string_op w) (2 ^ (8 * w) - 1)), accept)], (JStr cs). split; [constructor; auto|].
      split; [econstructor; [|constructor]; apply STR; [reflexivity|]; cbn [ask rq_op]; destruct WF as [-> |[-> | ->]]; reflexivity|]. split; [reflexivity|]. constructor; [|constructor]. split; [reflexivity|].
      unfold b. rewrite <- app_assoc. unfold readable. cbn [fst ask rq_op rq_pl].
      destruct WF as [-> |[-> | ->]]; cbn [string_op]; [| exact TX |]; intros e; unfold decode_value; cbn [chars_of pos_of].
      + rewrite prefixed_ok; auto; [now destruct o|]. destruct o; apply (comb_bytes 1); exact L.
      + specialize (M eq_refl). subst o. rewrite prefixed_ok; auto. apply (comb_bytes 4); exact L.
  Qed.

  (** What is proved of a member, of several, and of groups *)
  Definition member_dec (m : member) : Prop := forall t o pre old pf rest p st A R l, hole p R ->
    called names id pre m -> member_plain m -> tree_ok m t -> tree_managed m t o -> outside A st -> lenN A + depth m <= 8 -> lenN st + nesting m <= 31 ->
    exists z tt j, said Dec id pre (lenN pf) old m t z tt /\
      plays' (io_at (R (JObj l)) p st A) tt (io_at (R (JObj (l ++ [(member_name m, j)]))) p st A) /\ prints m t j /\
      Forall (heard (pf ++ fst (member_bytes m t o) ++ rest)) tt.

  Lemma members_dec b : Forall member_dec b -> forall ts o pre old pf rest p st A R l, hole p R ->
    every (called names id pre) b -> every member_plain b -> every2 tree_ok b ts -> members_managed b ts o -> outside A st ->
    lenN A + fold_right N.max 0 (map depth b) <= 8 -> lenN st + fold_right N.max 0 (map nesting b) <= 31 ->
    exists z tt ms, said_members Dec id pre (lenN pf) old b ts z tt /\
      plays' (io_at (R (JObj l)) p st A) tt (io_at (R (JObj (l ++ ms))) p st A) /\ prints_members b ts ms /\
      Forall (heard (pf ++ fst (members_bytes b ts o) ++ rest)) tt.
  Proof.
    induction 1 as [|m b MD F IH]; intros ts o pre old pf rest p st A R l HR CB W TO M OUT DA NS; destruct ts as [|t ts]; cbn [every2] in TO; try contradiction.
    - exists 0, [], []. rewrite app_nil_r. repeat split; constructor.
    - cbn [every map fold_right] in *. unfold members_managed in M. cbn [along2] in M. destruct CB as (C1 & CB), W as (W1 & W), TO as (T1 & TO), M as (M1 & M).
      rewrite members_cons. cbn [fst]. set (x := fst (member_bytes m t o)) in *. set (o1 := snd (member_bytes m t o)) in *. set (y := fst (members_bytes b ts o1)) in *.
      destruct (MD t o pre old pf (y ++ rest) p st A R l HR C1 W1 T1 M1 OUT ltac:(lia) ltac:(lia)) as (z1 & t1 & j & S1 & P1 & R1 & H1). fold x in H1.
      assert (Z1 : lenN x = z1) by (eapply said_sizes; eauto).
      destruct (IH ts o1 pre (skipn (N.to_nat z1) old) (pf ++ x) rest p st A R (l ++ [(member_name m, j)]) HR CB W TO M OUT ltac:(lia) ltac:(lia)) as (z2 & t2 & ms & S2 & P2 & R2 & H2). fold y in H2.
      exists (z1 + z2), (t1 ++ t2), ((member_name m, j) :: ms). split; [|split; [|split]].
      + constructor; [exact S1|]. rewrite lenN_app, Z1 in S2. exact S2.
      + eapply plays_join; [exact P1|]. rewrite <- app_assoc in P2. exact P2.
      + now constructor.
      + rewrite <- !app_assoc in *. apply Forall_app. auto.
  Qed.
  Lemma heard_enter b k : heard b (enter_call k, accept).
  Proof. split; [reflexivity|exact I]. Qed.
  Lemma groups_dec b n : Forall member_dec b -> forall gs o pre old pf rest p st A q R a k, hole q R ->
    every (called names id (inside pre n)) b -> every member_plain b -> every (fun g => every2 tree_ok b g) gs ->
    along (fun g => members_managed b g) (fun g o => snd (members_bytes b g o)) gs o ->
    lenN A + 1 + fold_right N.max 0 (map depth b) <= 8 -> lenN st + 1 + fold_right N.max 0 (map nesting b) <= 31 ->
    exists z tt js k', said_groups Dec id pre (lenN pf) old n b gs z tt /\
      plays' (io_at (R (JArr a)) p st ((q, k, lenN st) :: A)) tt (io_at (R (JArr (a ++ js))) p st ((q, k', lenN st) :: A)) /\ prints_groups b gs js /\
      Forall (heard (pf ++ fst (groups_bytes b gs o) ++ rest)) tt.
  Proof.
    intros F. induction gs as [|g gs IH]; intros o pre old pf rest p st A q R a k HR CB W TO M DA NS.
    - exists 0, [], [], k. rewrite app_nil_r. repeat split; constructor.
    - cbn [every along] in TO, M. destruct TO as (T1 & TO), M as (M1 & M).
      rewrite groups_cons. cbn [fst]. set (x := fst (members_bytes b g o)) in *. set (o1 := snd (members_bytes b g o)) in *. set (y := fst (groups_bytes b gs o1)) in *.
      destruct (members_dec b F g o (inside pre n) old pf (y ++ rest) (q ++ [length a]) (p :: st) ((q, k + 1, lenN st) :: A) (fun j => R (JArr (a ++ [j]))) [] (hole_arr q R a HR) CB W T1 M1)
        as (z1 & t1 & ms & S1 & P1 & R1 & H1).
      { cbn [outside]. rewrite lenN_cons. lia. } { rewrite lenN_cons. lia. } { rewrite lenN_cons. lia. } fold x in H1. cbn [app] in P1.
      assert (Z1 : lenN x = z1) by (eapply said_sizes; eauto).
      destruct (IH o1 pre (skipn (N.to_nat z1) old) (pf ++ x) rest p st A q R (a ++ [JObj ms]) (k + 1) HR CB W TO M DA NS) as (z2 & t2 & js & k' & S2 & P2 & R2 & H2). fold y in H2.
      exists (z1 + z2), ((enter_call (id (pre ++ n)), accept) :: t1 ++ (leave_call, accept) :: t2), (JObj ms :: js), k'. split; [|split; [|split]].
      + apply said_group; auto. rewrite lenN_app, Z1 in S2. exact S2.
      + eapply plays_more; [apply enter_dec_array; [exact HR|lia]|]. eapply plays_join; [exact P1|]. eapply plays_more; [apply leave_dec|]. rewrite <- app_assoc in P2. exact P2.
      + now constructor.
      + rewrite <- !app_assoc in *. constructor; [apply heard_enter|]. apply Forall_app. split; [exact H1|]. constructor; [split; [reflexivity|exact I]|exact H2].
  Qed.

  Lemma talks_dec m : member_dec m.
  Proof.
    induction m as [f|os x n b IH] using member_induction; intros t o pre old pf rest p st A R l HR (CN & CB) W TO M OUT DA NS.
    - destruct t as [d|gs]; [|contradiction]. cbn [member_plain tree_ok tree_managed member_name depth] in *.
      destruct (flat_dec f d (if f_big f then BE else o) l pf rest p st A R pre HR CN W TO M OUT ltac:(lia)) as (t & j & T & P & S & H).
      exists (size (f_content f) d), t, j. split; [now apply said_flat|]. split; [exact P|]. split; [now constructor|]. cbn [member_bytes]. destruct (f_big f); exact H.
    - destruct t as [d|gs]; [contradiction|]. destruct W as (WX & W), TO as (XO & TO), M as (NE & M). cbn [member_name depth nesting] in *.
      set (o1 := if last os false then BE else o) in *.
      assert (EB : fst (member_bytes (Nest os x n b) (Groups gs) o) = extent_bytes o1 x (lenN gs) ++ fst (groups_bytes b gs o1)).
      { cbn [member_bytes]. fold o1. change (chain (fun g => chain2 member_bytes b g)) with (groups_bytes b). destruct (groups_bytes b gs o1). reflexivity. }
      assert (XL : lenN (extent_bytes o1 x (lenN gs)) = extent_size x) by (destruct x; cbn [extent_bytes extent_size]; try reflexivity; rewrite lenN_bytes_of; lia).
      rewrite EB. destruct x as [|m|w].
      + (* one *)
        cbn [extent_ok] in XO. destruct gs as [|g [|g' gs]]; [discriminate XO| |rewrite !lenN_cons in XO; lia].
        cbn [every along extent_depth] in *. destruct TO as (TO & _), M as (M & _).
        destruct (members_dec b IH g o1 (inside pre n) old pf rest (p ++ [length l]) (p :: st) A (fun j => R (JObj (l ++ [(n, j)]))) [] (hole_obj p R l n HR) CB W TO M) as (z & tt & ms & S & P & PR & H).
        { destruct A as [|((a, c), d) A]; [exact I|]. cbn [outside] in *. rewrite lenN_cons. lia. } { lia. } { rewrite lenN_cons. lia. } cbn [app] in P.
        exists (0 + (z + 0)), ([] ++ ((enter_call (id (pre ++ n)), accept) :: tt ++ (leave_call, accept) :: []) ++ []), (JObj ms). split; [|split; [|split]].
        * apply (said_nest Dec id pre (lenN pf) old os One n b [g] (z + 0)); [reflexivity| |reflexivity]. apply said_group; auto; [|constructor]. cbn [extent_size]. now rewrite N.add_0_r.
        * cbn [app]. rewrite app_nil_r. eapply plays_more; [apply (enter_dec_member p st A R l n); auto; lia|]. eapply plays_join; [exact P|]. eapply plays_more; [apply leave_dec|constructor].
        * now constructor.
        * cbn [app extent_bytes]. rewrite app_nil_r. rewrite groups_cons. cbn [fst groups_bytes chain]. rewrite app_nil_r. constructor; [apply heard_enter|]. apply Forall_app. split; [exact H|]. repeat constructor.
      + cbn [extent_depth extent_size] in *. destruct (groups_dec b n IH gs o1 pre old pf rest p st A (p ++ [length l]) (fun j => R (JObj (l ++ [(n, j)]))) [] 0 (hole_obj p R l n HR) CB W TO M ltac:(lia) ltac:(lia)) as (z & tt & js & k' & S & P & PR & H).
        exists (0 + z), ([(ask (id (pre ++ n)) 0x34 (cvar 4 m) HCount, accept)] ++ tt ++ [(end_call, accept)]), (JArr js). split; [|split; [|split]].
        * apply (said_nest Dec id pre (lenN pf) old os (Fixed m) n b gs z); [exists accept; auto|cbn [extent_size]; now rewrite N.add_0_r|].
          cbn [ends]. destruct (N.eqb_spec (lenN gs) 0) as [Z|_]; [destruct gs; [contradiction|rewrite lenN_cons in Z; lia]|]. exists accept; auto.
        * cbn [app]. eapply plays_more; [apply (open_dec p st A R l n); [exact HR|exact CN|cbn; auto|lia]|]. eapply plays_join; [exact P|]. eapply plays_more; [apply close_dec|constructor].
        * constructor; [discriminate|exact PR].
        * cbn [app extent_bytes]. constructor; [split; [reflexivity|exact I]|]. apply Forall_app. split; [exact H|]. repeat constructor.
      + cbn [extent_depth extent_size] in *. destruct (groups_dec b n IH gs o1 pre (skipn (N.to_nat w) old) (pf ++ extent_bytes o1 (Counted w) (lenN gs)) rest p st A (p ++ [length l]) (fun j => R (JObj (l ++ [(n, j)]))) [] 0 (hole_obj p R l n HR) CB W TO M ltac:(lia) ltac:(lia)) as (z & tt & js & k' & S & P & PR & H).
        cbn [extent_wf] in WX.
        assert (OP : In (array_op w) [0x34; 0x35; 0x36; 0x37]) by (cbn [In] in *; destruct WX as [<- |[<- |[<- |[]]]]; cbn [array_op]; auto).
        exists (w + z), ([(ask (id (pre ++ n)) (array_op w) (cvar w (lenN gs)) HCount, accept)] ++ tt ++ [(end_call, accept)]), (JArr js). split; [|split; [|split]].
        * apply (said_nest Dec id pre (lenN pf) old os (Counted w) n b gs z); [exists accept; auto|cbn [extent_size]; rewrite lenN_app, XL in S; exact S|].
          cbn [ends]. destruct (N.eqb_spec (lenN gs) 0) as [Z|_]; [destruct gs; [contradiction|rewrite lenN_cons in Z; lia]|]. exists accept; auto.
        * cbn [app]. eapply plays_more; [apply (open_dec p st A R l n); [exact HR|exact CN|exact OP|lia]|]. eapply plays_join; [exact P|]. eapply plays_more; [apply close_dec|constructor].
        * constructor; [discriminate|exact PR].
        * cbn [app]. rewrite <- !app_assoc in *. constructor; [split; [reflexivity|]|].
          { unfold readable. cbn [fst ask rq_op]. cbn [In] in OP. destruct OP as [<-|[<-|[<-|[<-|[]]]]]; exact I. }
          apply Forall_app. split; [exact H|]. repeat constructor.
  Qed.
End Dec.
