(** Encoding from and decoding to JSON with the command line tool. *)
From Coq Require Import ZifyBool ZifyNat ZifyN.
From Verif Require Import Base SpecBytes LemBase ModelWord LemWord ModelFloat ModelTrans ModelVM SpecVM LemAct LemSafe LemRun LemStr
  ModelImage SpecPacket SpecMessage LemSend LemMessage ModelJson SpecJson LemJnum.
Ltac Zify.zify_post_hook ::= Z.div_mod_to_equations.

Lemma plays_join {H} (host : H -> request -> H * reply) t1 t2 h h1 h' : plays host h t1 h1 -> plays host h1 t2 h' -> plays host h (t1 ++ t2) h'.
Proof. intros P1 P2. induction P1; [exact P2|]. cbn [app]. econstructor; eauto. Qed.

(** ** Members of objects *)
Lemma same_key_spec a b : same_key a b = true <-> fold_case a = fold_case b.
Proof. unfold same_key. change (map lower) with fold_case. destruct list_eq_dec; split; auto; discriminate. Qed.
Lemma find_in n v l : NoDup (map (fun m => fold_case (fst m)) l) -> In (n, v) l ->
  forall k, exists i, find_member n l k = Some (k + i)%nat /\ nth_error (map snd l) i = Some v.
Proof.
  induction l as [|(m, w) l IH]; intros D I k; [contradiction|]. cbn [map fst snd find_member] in *. apply NoDup_cons_iff in D as (NI & D).
  destruct (same_key m n) eqn:SK.
  - apply same_key_spec in SK. destruct I as [I|I].
    + injection I as -> ->. exists 0%nat. split; [f_equal; lia|reflexivity].
    + elim NI. rewrite SK. apply in_map_iff. exists (n, v). auto.
  - destruct I as [I|I].
    + injection I as -> ->. assert (X : same_key n n = true) by now apply same_key_spec. congruence.
    + destruct (IH D I (S k)) as (i & A & B). exists (S i). split; [rewrite A; f_equal; lia|exact B].
Qed.

(** ** A callback that does not look at the packet *)
Definition string_ty (op : N) : bool := (op =? 0x30) || (op =? 0x31) || (op =? 0x32) || (op =? 0x33).
Definition chars_of (p : payload) : list N := match p with PBuf _ l => l | _ => [] end.
Definition put_value (names : list (list N)) (io : ioctx) (key : N) (j : json) : ioctx :=
  match in_array io with
  | Some (p, _, _) => next_item (with_root io (add_at (io_root io) p [] j))
  | None => with_root io (add_at (io_root io) (io_current io) (key_name names key) j)
  end.
Definition jh (m : mode) (names : list (list N)) (io : ioctx) (rq : request) : ioctx * reply :=
  match m with
  | Enc => match json_call Enc [] LE names io rq with Ok x => x | Ub _ => (io, reject) end
  | Dec => if string_ty (rq_op rq) then (put_value names io (rq_key rq) (JStr (chars_of (rq_pl rq))), accept)
           else match json_call Dec [] LE names io rq with Ok x => x | Ub _ => (io, reject) end
  end.

(** Replies write nothing into the packet *)
Lemma encode_value_bytes op j r : encode_value op j = Ok r -> r_bytes r = [].
Proof.
  unfold encode_value. intros E. repeat match type of E with
    | match ?x with _ => _ end = Ok _ => destruct x
    | bindR ?x _ = Ok _ => destruct x; cbn [bindR] in E
    end; try discriminate; injection E as <-; reflexivity || (repeat match goal with |- context [match ?x with _ => _ end] => destruct x; try reflexivity end).
Qed.
Lemma array_start_bytes m io op key : r_bytes (snd (array_start m io op key)) = [].
Proof.
  unfold array_start. destruct m; repeat match goal with |- context [match ?x with _ => _ end] => destruct x; cbn [snd]; try reflexivity end.
Qed.
Lemma json_call_bytes m b e names io rq x : json_call m b e names io rq = Ok x -> r_bytes (snd x) = [].
Proof.
  unfold json_call. intros E. destruct (rq_op rq =? 3); [|destruct (rq_op rq =? 4); [|destruct (is_array_op (rq_op rq)); [|destruct (rq_op rq =? 0x38);
    [|destruct ((rq_op rq =? 6) || (rq_op rq =? 0x60)); [|destruct (rq_op rq =? 0x78)]]]]].
  - repeat match type of E with match ?x with _ => _ end = Ok _ => destruct x end; try discriminate; injection E as <-; reflexivity.
  - injection E as <-. reflexivity.
  - injection E as <-. apply array_start_bytes.
  - injection E as <-. reflexivity.
  - repeat match type of E with match ?x with _ => _ end = Ok _ => destruct x | bindR ?x _ = Ok _ => destruct x; cbn [bindR] in E end; try discriminate; injection E as <-; reflexivity.
  - injection E as <-. reflexivity.
  - destruct m.
    + match type of E with (let (_, _) := ?x in _) = _ => destruct x as (it & io') end.
      match type of E with bindR ?x _ = _ => destruct x eqn:V end; cbn [bindR] in E; [|discriminate]. injection E as <-. eapply encode_value_bytes; eauto.
    + match type of E with bindR ?x _ = _ => destruct x as [[j|]|] end; cbn [bindR] in E; try discriminate; injection E as <-; reflexivity.
Qed.
Lemma jh_bytes m names io rq : r_bytes (snd (jh m names io rq)) = [].
Proof.
  unfold jh. destruct m; [|destruct (string_ty _); [reflexivity|]]; (destruct json_call eqn:E; [eapply json_call_bytes; eauto|reflexivity]).
Qed.

(** The calls for plain fields *)
Lemma value_op_call m b e names io rq : 0x10 <= rq_op rq <= 0x33 -> json_call m b e names io rq =
  match m with
  | Enc =>
    let (item, io) := match in_array io with
      | Some (p, i, _) => (get_item (io_root io) p i, next_item io)
      | None => (get_member (io_root io) (io_current io) (key_name names (rq_key rq)), io)
      end in
    let! r := encode_value (rq_op rq) (match item with Some p => at_path (io_root io) p | None => None end) in
    Ok (io, r)
  | Dec =>
    let! v := decode_value b e (rq_op rq) (rq_pl rq) in
    match v with None => Ok (io, accept) | Some j => Ok (put_value names io (rq_key rq) j, accept) end
  end.
Proof.
  intros B. unfold json_call, is_array_op.
  repeat match goal with |- context [if ?x then _ else _] => replace x with false by lia end. reflexivity.
Qed.
Lemma array_op_call m b e names io rq : In (rq_op rq) [0x34; 0x35; 0x36; 0x37] ->
  json_call m b e names io rq = Ok (array_start m io (rq_op rq) (key_name names (rq_key rq))).
Proof. intros B. unfold json_call. cbn [In] in B. destruct B as [<-|[<-|[<-|[<-|[]]]]]; reflexivity. Qed.
Lemma end_op_call m b e names io : json_call m b e names io end_call = Ok (with_arrays io (tl (io_arrays io)), accept).
Proof. reflexivity. Qed.

Section Talk.
  Variables (names : list (list N)) (id : list N -> N).
  Definition named (f : field) : Prop := key_name names (id (f_name f)) = f_name f.

  (** ** Encoding *)
  Section Enc.
    Variables (l : list (list N * json)).
    Let doc := JObj l.
    Definition inside (i : nat) (k : N) : ioctx := {| io_root := doc; io_stack := [[]]; io_arrays := [([i], k, 0)] |}.

    Lemma get_doc n v : NoDup (map (fun m => fold_case (fst m)) l) -> In (n, v) l ->
      exists i, get_member doc [] n = Some [i] /\ at_path doc [i] = Some v.
    Proof.
      intros D I. destruct (find_in n v l D I 0) as (i & A & B). exists i. unfold get_member. cbn [at_path doc children]. rewrite A, B. auto.
    Qed.

    Lemma elems_enc k ty i a : 0x10 <= ty <= 0x1A -> at_path doc [i] = Some (JArr a) ->
      forall vs js pre, a = pre ++ js -> Forall2 (shows_number ty) vs js -> Forall (number_ok ty) vs -> Forall (number_managed ty) vs ->
      exists t, gives_each k ty vs t /\ plays (jh Enc names) (inside i (lenN pre)) t (inside i (lenN a)).
    Proof.
      intros T AT. induction vs as [|v vs IH]; intros js pre EA F OK M.
      - inversion F; subst. rewrite app_nil_r. exists []. split; constructor.
      - inversion F as [|? j ? js' SJ F']; subst. pose proof (Forall_inv OK) as O1. pose proof (Forall_inv M) as M1.
        destruct (IH js' (pre ++ [j]) ltac:(now rewrite <- app_assoc) F' (Forall_inv_tail OK) (Forall_inv_tail M)) as (t & G & P).
        destruct (value_enc ty v j T O1 M1 SJ) as (x & EV & XV).
        exists ((value_call k ty 0, store x) :: t). split; [constructor; auto|].
        econstructor; [|exact P].
        unfold jh. rewrite value_op_call by (cbn [value_call ask rq_op]; lia).
        change (in_array (inside i (lenN pre))) with (Some ([i], lenN pre, @nil (path * N * N))). cbv iota beta.
        change (io_root (inside i (lenN pre))) with doc. change (next_item (inside i (lenN pre))) with (inside i (lenN pre + 1)). cbv beta iota.
        unfold get_item. rewrite AT. cbn [children]. rewrite lenN_app, lenN_cons. destruct (N.ltb_spec (lenN pre) (lenN pre + (lenN js' + 1))); [|lia].
        cbn [app]. change (io_root (inside i (lenN pre + 1))) with doc.
        assert (AP : at_path doc [i; N.to_nat (lenN pre)] = Some j).
        { cbn [at_path] in AT |- *. destruct (nth_error (children doc) i); [|discriminate]. injection AT as ->. cbn [children].
          unfold lenN. rewrite Nat2N.id, nth_error_app2, Nat.sub_diag by lia. reflexivity. }
        rewrite AP. cbn [value_call ask rq_op]. rewrite EV. cbn [bindR]. now rewrite lenN_app.
    Qed.

    Lemma array_enc k ty i a pos old vs js r : 0x10 <= ty <= 0x1A -> at_path doc [i] = Some (JArr js) -> a = inside i 0 ->
      Forall2 (shows_number ty) vs js -> Forall (number_ok ty) vs -> Forall (number_managed ty) vs -> vs <> [] -> ~ byte_type ty ->
      r = start_io doc -> exists t, gives_all k ty pos old vs t /\ plays (jh Enc names) a t r.
    Proof.
      intros T AT -> F OK M NE NB ->. destruct (elems_enc k ty i js T AT vs js [] eq_refl F OK M) as (t & G & P).
      exists (t ++ [(end_call, accept)]). split; [now apply all_singly|]. eapply plays_join; [exact P|]. econstructor; [|constructor]. reflexivity.
    Qed.

    Lemma field_enc f d o pos old v : NoDup (map (fun m => fold_case (fst m)) l) -> named f -> In (f_name f, v) l -> shows (f_content f) d v ->
      content_wf (f_content f) -> datum_ok (f_content f) d -> managed o (f_content f) d ->
      exists t, gives (id (f_name f)) pos old (f_content f) d t /\ plays (jh Enc names) (start_io doc) t (start_io doc).
    Proof.
      intros ND NM I SH WF OK M. destruct (get_doc _ _ ND I) as (i & GM & AT). unfold named in NM. set (k := id (f_name f)) in *.
      assert (CALL : forall rq, rq_key rq = k -> 0x10 <= rq_op rq <= 0x33 -> forall r, encode_value (rq_op rq) (Some v) = Ok r -> jh Enc names (start_io doc) rq = (start_io doc, r)).
      { intros rq K B r E. unfold jh. rewrite value_op_call by exact B. change (in_array (start_io doc)) with (@None (path * N * list (path * N * N))). cbv iota beta.
        change (io_root (start_io doc)) with doc. change (io_current (start_io doc)) with (@nil nat). rewrite K, NM, GM. cbv beta iota. rewrite AT, E. reflexivity. }
      assert (ARR : forall rq js, rq_key rq = k -> In (rq_op rq) [0x34; 0x35; 0x36; 0x37] -> v = JArr js ->
        jh Enc names (start_io doc) rq = (inside i 0, if is_prefix_op (rq_op rq) then store (lenN js) else accept)).
      { intros rq js K B ->. unfold jh. rewrite array_op_call by exact B. unfold array_start. change (io_root (start_io doc)) with doc. change (io_current (start_io doc)) with (@nil nat).
        rewrite K, NM, GM, AT. reflexivity. }
      destruct (f_content f) as [ty [|n|w]|mx|w]; destruct d as [x|vs|cs]; cbn [shows datum_ok managed content_wf] in *; try contradiction.
      - destruct (value_enc ty x v ltac:(lia) OK M SH) as (y & EV & XV). exists [(value_call k ty 0, store y)]. split; [constructor; auto|].
        econstructor; [|constructor]. apply CALL; cbn [value_call ask rq_key rq_op]; auto. lia.
      - destruct SH as (js & -> & F). destruct OK as (L & B & OK). destruct M as (NE & NB & M). destruct WF as (T & _).
        destruct (array_enc k ty i (inside i 0) pos old vs js (start_io doc) T AT eq_refl F OK M NE NB eq_refl) as (t & G & P).
        exists ((ask k 0x34 (cvar 4 n) HCount, accept) :: t). split; [constructor; auto|]. econstructor; [|exact P]. rewrite (ARR _ js); cbn; auto.
      - destruct SH as (js & -> & F). destruct OK as (L & B & OK). destruct M as (NE & NB & M). destruct WF as (T & CW).
        destruct (array_enc k ty i (inside i 0) (pos + w) (skipn (N.to_nat w) old) vs js (start_io doc) T AT eq_refl F OK M NE NB eq_refl) as (t & G & P).
        exists ((ask k (array_op w) (cvar w 0) HCount, store (lenN js)) :: t). assert (LL : length vs = length js) by (clear -F; induction F; cbn; congruence).
        assert (LN : lenN js = lenN vs) by (unfold lenN; now rewrite <- LL). rewrite LN. split.
        + constructor; auto. unfold answer. cbn [r_val store]. now apply N.mod_small.
        + econstructor; [|exact P]. rewrite (ARR _ js); auto; cbn [ask rq_op]; destruct CW as [-> |[-> | ->]]; cbn [array_op In]; auto; change (is_prefix_op _) with true; cbv iota; now rewrite LN.
      - subst v. destruct OK as (TX & L). exists [(ask k 0x30 PStr (HString 0x30 mx), store_str cs)]. split.
        + replace cs with (cut mx cs) at 1 by (unfold cut, lenN in *; apply firstn_all2; lia). apply (give_text _ _ _ _ cs); auto.
        + econstructor; [|constructor]. apply CALL; cbn [ask rq_op rq_key]; auto. lia.
      - subst v. destruct OK as (_ & L), M as (TX & M). exists [(ask k (string_op w) PStr (HString (string_op w) (2 ^ (8 * w) - 1)), store_str cs)]. split.
        + replace cs with (cut (2 ^ (8 * w) - 1) cs) at 1 by (unfold cut, lenN in *; apply firstn_all2; lia). apply (give_counted_text _ _ _ _ cs); auto.
        + econstructor; [|constructor]. apply CALL; cbn [ask rq_op rq_key]; auto; destruct WF as [-> |[-> | ->]]; cbn [string_op]; try lia; reflexivity.
    Qed.

    Lemma talk_enc : NoDup (map (fun m => fold_case (fst m)) l) -> forall fs ds os pos old,
      Forall2 (fun f d => exists v, In (f_name f, v) l /\ shows (f_content f) d v) fs ds -> Forall named fs ->
      Forall (fun f => content_wf (f_content f)) fs -> Forall2 (fun f d => datum_ok (f_content f) d) fs ds -> all_managed os fs ds -> length os = length fs ->
      exists t, gives_fields id pos old fs ds t /\ plays (jh Enc names) (start_io doc) t (start_io doc).
    Proof.
      intros ND. induction fs as [|f fs IH]; intros ds os pos old F NM WF OK M LO.
      - inversion F; subst. exists []. split; constructor.
      - inversion F as [|? d ? ds' (v & I & SH) F']; subst. inversion OK as [|? ? ? ? O1 O2]; subst. destruct os as [|o os]; [discriminate|]. cbn [all_managed] in M. destruct M as (M1 & M2).
        destruct (field_enc f d o pos old v ND (Forall_inv NM) I SH (Forall_inv WF) O1 M1) as (t1 & G1 & P1).
        destruct (IH ds' os (pos + size (f_content f) d) (skipn (N.to_nat (size (f_content f) d)) old) F' (Forall_inv_tail NM) (Forall_inv_tail WF) O2 M2 ltac:(cbn in LO; lia)) as (t2 & G2 & P2).
        exists (t1 ++ t2). split; [now constructor|]. eapply plays_join; eauto.
    Qed.
  End Enc.

  (** ** Decoding *)
  (** What the callback finds in the packet [b] is what the request says *)
  Definition readable (b : list N) (rq : request) : Prop :=
    match rq_op rq with
    | 0x30 | 0x31 | 0x33 => forall e, decode_value b e (rq_op rq) (rq_pl rq) = Ok (Some (JStr (chars_of (rq_pl rq))))
    | 0x32 => text (chars_of (rq_pl rq))
    | _ => True
    end.
  Definition heard (b : list N) (ev : event) : Prop := r_ok (snd ev) = true /\ readable b (fst ev).
  Definition within (l : list (list N * json)) (key : list N) (a : list json) (k : N) : ioctx :=
    {| io_root := JObj (l ++ [(key, JArr a)]); io_stack := [[]]; io_arrays := [([length l], k, 0)] |}.

  Lemma change_last {A} (l : list A) x f : change (length l) f (l ++ [x]) = l ++ [f x].
  Proof. induction l as [|y l IH]; [reflexivity|]. cbn. now rewrite IH. Qed.
  Lemma within_next l key a k j : next_item (with_root (within l key a k) (add_at (io_root (within l key a k)) [length l] [] j)) = within l key (a ++ [j]) (k + 1).
  Proof. unfold within, with_root, next_item, with_arrays. cbn [io_root io_stack io_arrays add_at]. rewrite change_last. reflexivity. Qed.

  Lemma elems_dec b k ty l key : 0x10 <= ty <= 0x1A -> forall vs a n, Forall (number_ok ty) vs -> Forall (number_managed ty) vs ->
    exists t js m, told_each k ty vs t /\ plays (jh Dec names) (within l key a n) t (within l key (a ++ js) m) /\ Forall2 (shows_number ty) vs js /\ Forall (heard b) t.
  Proof.
    intros T. induction vs as [|v vs IH]; intros a n OK M.
    - exists [], [], n. rewrite app_nil_r. repeat split; constructor.
    - destruct (value_dec [] LE ty v T (Forall_inv OK) (Forall_inv M)) as (j & DV & SH).
      destruct (IH (a ++ [j]) (n + 1) (Forall_inv_tail OK) (Forall_inv_tail M)) as (t & js & m & G & P & F & R).
      exists ((value_call k ty v, accept) :: t), (j :: js), m. split; [now constructor|]. split; [|split; [now constructor|]].
      + econstructor; [|rewrite <- app_assoc in P; exact P]. unfold jh. change (rq_op (value_call k ty v)) with ty.
        replace (string_ty ty) with false by (unfold string_ty; lia). rewrite value_op_call by (change (rq_op (value_call k ty v)) with ty; lia).
        change (rq_op (value_call k ty v)) with ty. change (rq_pl (value_call k ty v)) with (cvar (width ty) v).
        rewrite DV. cbn [bindR]. unfold put_value. change (in_array (within l key a n)) with (Some ([length l], n, @nil (path * N * N))). cbv iota beta.
        now rewrite within_next.
      + constructor; [|exact R]. split; [reflexivity|]. unfold readable. cbn [fst value_call ask rq_op].
        assert (C : ty = 0x10 \/ ty = 0x11 \/ ty = 0x12 \/ ty = 0x13 \/ ty = 0x14 \/ ty = 0x15 \/ ty = 0x16 \/ ty = 0x17 \/ ty = 0x18 \/ ty = 0x19 \/ ty = 0x1A) by lia.
        clear -C. repeat (destruct C as [-> |C]; [exact I|]). rewrite C. exact I.
  Qed.

  Lemma c_string_text l r : text l -> c_string (l ++ 0 :: r) = Ok l.
  Proof.
    induction 1 as [|x l (A & B) F IH]; [reflexivity|]. cbn [app c_string]. destruct (N.eqb_spec x 0); [lia|]. now rewrite IH.
  Qed.
  Lemma comb_bytes n v : v < 2 ^ (8 * n) -> le_comb (bytes_of LE (N.to_nat n) v) = v.
  Proof.
    intros B. unfold le_comb. rewrite il_comb_val by apply wf_bytes_of. rewrite N.mul_1_r. change (le_val ?l) with (val_of LE l).
    rewrite val_bytes. apply N.mod_small. rewrite N2Nat.id. change 256 with (2 ^ 8). now rewrite <- N.pow_mul_r.
  Qed.
  Lemma prefixed_ok pre x rest n l (f : list N -> N) : text l -> lenN x = n -> f x = lenN l -> prefixed (pre ++ x ++ l ++ rest) (lenN pre + n) n f = Ok (JStr l).
  Proof.
    intros TX <- E. set (n := lenN x) in *. unfold prefixed. destruct (N.ltb_spec (lenN pre + n) n); [lia|]. rewrite !slice_eq.
    replace (lenN pre + n - n) with (lenN pre) by lia. rewrite !lenN_app. fold n.
    destruct (N.leb_spec (lenN pre + n) (lenN pre + (n + (lenN l + lenN rest)))); [|lia]. cbn [bindR]. unfold n at 1. rewrite sub_front, E. rewrite slice_eq, !lenN_app. fold n.
    destruct (N.leb_spec (lenN pre + n + lenN l) (lenN pre + (n + (lenN l + lenN rest)))); [|lia]. cbn [bindR].
    replace (lenN pre + n) with (lenN (pre ++ x)) by apply lenN_app. replace (pre ++ x ++ l ++ rest) with ((pre ++ x) ++ l ++ rest) by now rewrite <- app_assoc.
    rewrite sub_front. now rewrite cstr_text.
  Qed.

  Lemma field_dec f d o l pre rest : named f -> content_wf (f_content f) -> datum_ok (f_content f) d -> managed o (f_content f) d ->
    let b := pre ++ datum_bytes o (f_content f) d ++ rest in
    exists t j, told (id (f_name f)) (lenN pre) (f_content f) d t /\ plays (jh Dec names) (start_io (JObj l)) t (start_io (JObj (l ++ [(f_name f, j)]))) /\
      shows (f_content f) d j /\ Forall (heard b) t.
  Proof.
    intros NM WF OK M b. unfold named in NM. set (k := id (f_name f)) in *.
    assert (CALL : forall rq j, rq_key rq = k -> 0x10 <= rq_op rq <= 0x1A -> decode_value [] LE (rq_op rq) (rq_pl rq) = Ok (Some j) ->
      jh Dec names (start_io (JObj l)) rq = (start_io (JObj (l ++ [(f_name f, j)])), accept)).
    { intros rq j K B E. unfold jh. replace (string_ty (rq_op rq)) with false by (unfold string_ty; lia). rewrite value_op_call by lia. rewrite E. cbn [bindR]. unfold put_value.
      change (in_array (start_io (JObj l))) with (@None (path * N * list (path * N * N))). cbv iota beta. now rewrite K, NM. }
    assert (STR : forall rq, rq_key rq = k -> string_ty (rq_op rq) = true ->
      jh Dec names (start_io (JObj l)) rq = (start_io (JObj (l ++ [(f_name f, JStr (chars_of (rq_pl rq)))])), accept)).
    { intros rq K B. unfold jh. rewrite B. unfold put_value. change (in_array (start_io (JObj l))) with (@None (path * N * list (path * N * N))). cbv iota beta. now rewrite K, NM. }
    assert (ARR : forall rq, rq_key rq = k -> In (rq_op rq) [0x34; 0x35; 0x36; 0x37] -> jh Dec names (start_io (JObj l)) rq = (within l (f_name f) [] 0, accept)).
    { intros rq K B. unfold jh. replace (string_ty (rq_op rq)) with false by (cbn [In] in B; destruct B as [<-|[<-|[<-|[<-|[]]]]]; reflexivity). rewrite array_op_call by exact B. unfold array_start.
      change (lenN (io_arrays (start_io (JObj l)))) with 0. cbn [N.leb N.compare]. rewrite K, NM. cbn [io_root start_io io_current io_stack add_at]. unfold within, with_arrays, with_root.
      cbn [io_root io_stack io_arrays last_child at_path]. unfold last_child. cbn [at_path children app]. rewrite map_length, app_length. cbn [length]. replace (pred (length l + 1)) with (length l) by lia. reflexivity. }
    assert (AFTER : forall a m, with_arrays (within l (f_name f) a m) (tl (io_arrays (within l (f_name f) a m))) = start_io (JObj (l ++ [(f_name f, JArr a)]))) by reflexivity.
    assert (ALL : forall ty vs p, 0x10 <= ty <= 0x1A -> Forall (number_ok ty) vs -> Forall (number_managed ty) vs -> vs <> [] -> ~ byte_type ty ->
      exists t js, told_all k ty p vs t /\ plays (jh Dec names) (within l (f_name f) [] 0) t (start_io (JObj (l ++ [(f_name f, JArr js)]))) /\ Forall2 (shows_number ty) vs js /\ Forall (heard b) t).
    { intros ty vs p T O MM NE NB. destruct (elems_dec b k ty l (f_name f) T vs [] 0 O MM) as (t & js & m & G & P & F & R).
      exists (t ++ [(end_call, accept)]), js. split; [now apply tall_singly|]. split; [|split; [exact F|]].
      - eapply plays_join; [exact P|]. econstructor; [|constructor]. unfold jh. cbn [string_ty end_call ask rq_op]. change (string_ty 0x38) with false. cbv iota.
        change {| rq_key := 0; rq_op := 56; rq_pl := PNone; rq_how := HNote |} with end_call. rewrite end_op_call, AFTER. reflexivity.
      - apply Forall_app. split; [exact R|]. constructor; [|constructor]. split; [reflexivity|exact I]. }
    destruct (f_content f) as [ty [|n|w]|mx|w]; destruct d as [x|vs|cs]; cbn [datum_ok managed content_wf datum_bytes] in *; try contradiction.
    - destruct (value_dec [] LE ty x ltac:(lia) OK M) as (j & DV & SH). exists [(value_call k ty x, accept)], j. split; [constructor; auto|].
      split; [econstructor; [|constructor]; apply CALL; auto; cbn; lia|]. split; [exact SH|]. constructor; [|constructor]. split; [reflexivity|].
      unfold readable. cbn [fst value_call ask rq_op]. destruct WF as (T & _).
      assert (C : ty = 0x10 \/ ty = 0x11 \/ ty = 0x12 \/ ty = 0x13 \/ ty = 0x14 \/ ty = 0x15 \/ ty = 0x16 \/ ty = 0x17 \/ ty = 0x18 \/ ty = 0x19 \/ ty = 0x1A) by lia.
      clear -C. repeat (destruct C as [-> |C]; [exact I|]). rewrite C. exact I.
    - destruct OK as (L & B & OK). destruct M as (NE & NB & M). destruct WF as (T & _). destruct (ALL ty vs (lenN pre) T OK M NE NB) as (t & js & G & P & F & R).
      exists ((ask k 0x34 (cvar 4 n) HCount, accept) :: t), (JArr js). split; [constructor; auto|]. split; [econstructor; [|exact P]; apply ARR; cbn; auto|].
      split; [exists js; auto|]. constructor; [split; [reflexivity|exact I]|exact R].
    - destruct OK as (L & B & OK). destruct M as (NE & NB & M). destruct WF as (T & CW). destruct (ALL ty vs (lenN pre + w) T OK M NE NB) as (t & js & G & P & F & R).
      exists ((ask k (array_op w) (cvar w (lenN vs)) HCount, accept) :: t), (JArr js). split; [constructor; auto|].
      split; [econstructor; [|exact P]; apply ARR; auto; cbn [ask rq_op]; destruct CW as [-> |[-> | ->]]; cbn [array_op In]; auto|].
      split; [exists js; auto|]. constructor; [split; [reflexivity|]|exact R]. unfold readable. cbn [fst ask rq_op]. destruct CW as [-> |[-> | ->]]; exact I.
    - destruct OK as (TX & L). exists [(ask k 0x30 (PBuf (lenN pre) cs) (HString 0x30 mx), accept)], (JStr cs). split; [constructor; auto|].
      split; [econstructor; [|constructor]; apply STR; reflexivity|]. split; [reflexivity|]. constructor; [|constructor]. split; [reflexivity|].
      intros e. unfold decode_value. cbn [fst ask rq_op rq_pl pos_of chars_of]. unfold b, lenN. rewrite Nat2N.id, skipn_app, skipn_all, Nat.sub_diag. cbn [app skipn].
      rewrite <- app_assoc. cbn [app]. now rewrite c_string_text.
    - destruct OK as (_ & L), M as (TX & M). exists [(ask k (string_op w) (PBuf (lenN pre + w) cs) (HString (string_op w) (2 ^ (8 * w) - 1)), accept)], (JStr cs). split; [constructor; auto|].
      split; [econstructor; [|constructor]; apply STR; [reflexivity|]; cbn [ask rq_op]; destruct WF as [-> |[-> | ->]]; reflexivity|]. split; [reflexivity|]. constructor; [|constructor]. split; [reflexivity|].
      unfold b. rewrite <- app_assoc. unfold readable. cbn [fst ask rq_op rq_pl].
      destruct WF as [-> |[-> | ->]]; cbn [string_op]; [| exact TX |]; intros e; unfold decode_value; cbn [chars_of pos_of].
      + rewrite prefixed_ok; auto; [now destruct o|]. destruct o; apply (comb_bytes 1); exact L.
      + specialize (M eq_refl). subst o. rewrite prefixed_ok; auto. apply (comb_bytes 4); exact L.
  Qed.

  Lemma talk_dec : forall fs ds os l pre rest, Forall named fs ->
    Forall (fun f => content_wf (f_content f)) fs -> Forall2 (fun f d => datum_ok (f_content f) d) fs ds -> all_managed os fs ds -> length os = length fs ->
    let b := pre ++ wire os fs ds ++ rest in
    exists t ms, told_fields id (lenN pre) fs ds t /\ plays (jh Dec names) (start_io (JObj l)) t (start_io (JObj (l ++ ms))) /\ document fs ds ms /\ Forall (heard b) t.
  Proof.
    induction fs as [|f fs IH]; intros ds os l pre rest NM WF OK M LO b.
    - inversion OK; subst. exists [], []. rewrite app_nil_r. repeat split; constructor.
    - inversion OK as [|? d ? ds' O1 O2]; subst. destruct os as [|o os]; [discriminate|]. cbn [all_managed] in M. destruct M as (M1 & M2).
      destruct (field_dec f d o l pre (wire os fs ds' ++ rest) (Forall_inv NM) (Forall_inv WF) O1 M1) as (t1 & j & G1 & P1 & S1 & R1).
      destruct (IH ds' os (l ++ [(f_name f, j)]) (pre ++ datum_bytes o (f_content f) d) rest (Forall_inv_tail NM) (Forall_inv_tail WF) O2 M2 ltac:(cbn in LO; lia)) as (t2 & ms & G2 & P2 & S2 & R2).
      exists (t1 ++ t2), ((f_name f, j) :: ms). split; [|split; [|split]].
      + constructor; [exact G1|]. rewrite lenN_app, datum_len in G2. exact G2.
      + eapply plays_join; [exact P1|]. rewrite <- app_assoc in P2. exact P2.
      + now constructor.
      + unfold b. cbn [wire]. rewrite <- !app_assoc in *. apply Forall_app. auto.
  Qed.
End Talk.

(** ** Requests about strings with a 16-bit length *)
Definition asked (b : list N) (e : endian) (rq : request) : Prop := exists p l, rq_pl rq = PBuf p l /\ 2 <= p /\
  p + lenN l <= lenN b /\ sub b p (lenN l) = l /\ val_of e (sub b (p - 2) 2) = lenN l.
Section Asks.
  Variable Q : request -> Prop.
  Fixpoint asks (a : act) : Prop := match a with Ask rq k => Q rq /\ forall r, asks (k r) | _ => True end.
  Lemma asks_lift {A} (x : result A) k : (forall v, x = Ok v -> asks (k v)) -> asks (lift x k).
  Proof. destruct x; cbn; auto. Qed.
  Lemma asks_call s key op p h k : Q {| rq_key := key; rq_op := op; rq_pl := p; rq_how := h |} -> (forall r, asks (k r)) -> asks (call s key op p h k).
  Proof. intros A B. cbn. split; auto. intros r. destruct (r_ok r); cbn; auto. Qed.
End Asks.
Definition other (rq : request) : Prop := rq_op rq <> 0x32.
Ltac ak := repeat (cbv beta zeta; match goal with
  | |- asks _ (Cont _) => exact I
  | |- asks _ (Undef _) => exact I
  | |- asks _ (Halt _ _) => exact I
  | |- asks _ (lift _ _) => apply asks_lift; intros ? ?
  | |- asks _ (call _ _ _ _ _ _) => apply asks_call; [unfold other; cbn [rq_op]; try discriminate; try assumption|intros ?]
  | |- asks _ (Ask _ _) => split; [unfold other; cbn [rq_op]; try discriminate; try assumption|intros ?]
  | |- asks _ (if ?x then _ else _) => destruct x eqn:?
  | |- asks _ (match ?x with _ => _ end) => destruct x eqn:?
  end).
Lemma eng_op_other op t : op <> 0x32 -> eng_op op t <> 0x32.
Proof. intros. destruct t; cbn [eng_op]; try discriminate; assumption. Qed.
Lemma f_eng_op_other op t : op <> 0x32 -> f_eng_op op t <> 0x32.
Proof. intros. destruct t; cbn [f_eng_op]; try discriminate; assumption. Qed.
Lemma int_type_other ty x : int_type ty = Some x -> ty <> 0x32.
Proof. intros E ->. discriminate. Qed.
Lemma exec_other lm bc op s : op <> 0x32 -> asks other (exec_op lm bc op s).
Proof.
  intros NE. unfold exec_op. destruct (classify op) eqn:C.
  all: try (unfold dup_op, emit, const_write, const_check, enum_check, read_back, range_check, crc_op, scale_lin, trans_poly, trans_spline,
      trans_int, io_int, io_float, io_scalar, io_bool, io_bit_u, io_bit_i, io_bit_bool, align_pad, align_fill, put_bits, get_bits,
      str_null, str_pre, arr_pre, arr_fixed, arr_dynamic, arr_eof, arr_end, enter_array, try_bulk, loop_push, raw_bytes,
      switch_op, switch_table, jump_if_not, jump_op, jump_to, bin_op, un_op, load_ctx, store_ctx, push, pop; ak; auto using eng_op_other, f_eng_op_other; eauto using int_type_other; fail).
Qed.

Lemma align_same op s : md (align op s) = md s /\ buf (align op s) = buf s /\ en (align op s) = en s.
Proof. unfold align. destruct (_ && _); auto. Qed.
Lemma step_asks lm bc s : wf_bytes (buf s) -> asks (fun rq => md s = Dec -> rq_op rq = 0x32 -> asked (buf s) (en s) rq) (step lm bc s).
Proof.
  intros WF. unfold step. apply asks_lift. intros op _. destruct (align_same op (set_ip s (ip s + 1))) as (M & B & E).
  change (md (set_ip s (ip s + 1))) with (md s) in M. change (buf (set_ip s (ip s + 1))) with (buf s) in B. change (en (set_ip s (ip s + 1))) with (en s) in E.
  set (s1 := align op _) in *. clearbody s1. destruct (N.eq_dec op 0x32) as [-> |NE].
  - change (exec_op lm bc 0x32 s1) with (str_pre bc s1 0x32 W2). unfold str_pre. apply asks_lift. intros (key, p) _.
    set (s2 := set_ip s1 p). change (md s2) with (md s1). rewrite M. destruct (md s) eqn:MD.
    + cbv zeta. split; [discriminate|]. intros r. set (q := fun _ : request => _). clearbody q. ak.
    + cbv zeta. destruct (_ <? _) eqn:L1; [exact I|]. apply asks_lift. intros n RW. destruct (dlen s2 <? _ + n) eqn:L2; [exact I|].
      apply asks_lift. intros l SL. apply asks_call; [|intros r; set (q := fun _ : request => _); clearbody q; ak].
      intros _ _. cbn [rq_pl]. exists (cur s2 + wbytes W2), l. change (buf s2) with (buf s1) in *. change (en s2) with (en s1) in *. unfold dlen in *. change (buf s2) with (buf s1) in *.
      rewrite B in *. rewrite E in *. rewrite read_word_eq in RW by auto. rewrite slice_eq in SL. change (wbytes W2) with 2 in *.
      destruct (N.leb_spec (cur s2 + 2) (lenN (buf s))); [|discriminate]. injection RW as RW. destruct (N.leb_spec (cur s2 + 2 + n) (lenN (buf s))); [|discriminate]. injection SL as SL.
      change (cur s2) with (cur s1) in *. assert (LL : lenN l = n) by (rewrite <- SL; apply lenN_sub; lia).
      split; [reflexivity|]. split; [lia|]. split; [lia|]. split; [now rewrite LL|]. replace (cur s1 + 2 - 2) with (cur s1) by lia. rewrite LL. exact RW.
  - pose proof (exec_other lm bc op s1 NE) as X. revert X. generalize (exec_op lm bc op s1). clear. induction a as [s0|e s0|u|rq k IH]; cbn; auto.
    intros (A & C). split; [intros _ D; contradiction|]. intros r. apply IH, C.
Qed.

(** ** The tool's callback agrees *)
Lemma agree_enc names s io rq io' r : md s = Enc -> jh Enc names io rq = (io', r) -> r_ok r = true -> json_host names s io rq = Ok (io', r).
Proof.
  intros M J R. unfold json_host. rewrite M. unfold jh in J. change (json_call Enc (buf s) (en s) names io rq) with (json_call Enc [] LE names io rq).
  destruct json_call; [congruence|]. injection J as <- <-. discriminate.
Qed.
Lemma decode_other b e op p : string_ty op = false -> decode_value b e op p = decode_value [] LE op p.
Proof.
  intros S. unfold string_ty in S. destruct op as [|[[[[[[]|[]|]|[[]|[]|]|]|[[[]|[]|]|[[]|[]|]|]|]|[[[[]|[]|]|[[]|[]|]|]|[[[]|[]|]|[[]|[]|]|]|]|]|[[[[[]|[]|]|[[]|[]|]|]|[[[]|[]|]|[[]|[]|]|]|]|[[[[]|[]|]|[[]|[]|]|]|[[[]|[]|]|[[]|[]|]|]|]|]|]]; reflexivity || discriminate.
Qed.
Lemma agree_dec names s b io rq io' r : md s = Dec -> buf s = b -> wf_bytes b -> jh Dec names io rq = (io', r) -> r_ok r = true -> readable b rq ->
  (rq_op rq = 0x32 -> asked b (en s) rq) -> json_host names s io rq = Ok (io', r).
Proof.
  intros M B WF J R RD A. unfold json_host. rewrite M, B. unfold jh in J. destruct (string_ty (rq_op rq)) eqn:S.
  - injection J as <- <-. rewrite value_op_call by (unfold string_ty in S; lia).
    assert (D : decode_value b (en s) (rq_op rq) (rq_pl rq) = Ok (Some (JStr (chars_of (rq_pl rq))))).
    { unfold readable in RD. unfold string_ty in S. assert (C : rq_op rq = 0x30 \/ rq_op rq = 0x31 \/ rq_op rq = 0x33 \/ rq_op rq = 0x32) by lia.
      destruct C as [C|[C|[C|C]]]; rewrite C in *; [exact (RD (en s)) ..|]. destruct (A eq_refl) as (p & l & EP & P2 & LB & SL & VL). rewrite EP in *. cbn [chars_of] in *.
      cbn [decode_value pos_of]. unfold prefixed. destruct (N.ltb_spec p 2); [lia|]. rewrite slice_eq. destruct (N.leb_spec (p - 2 + 2) (lenN b)); [|lia]. cbn [bindR].
      assert (E : match en s with LE => le_comb (sub b (p - 2) 2) | BE => le_comb (rev (sub b (p - 2) 2)) end = lenN l).
      { rewrite <- VL. unfold val_of, le_comb. destruct (en s); rewrite il_comb_val; try lia; try (apply wf_rev); now apply wf_sub. }
      rewrite E, slice_eq. destruct (N.leb_spec (p + lenN l) (lenN b)); [|lia]. cbn [bindR]. rewrite SL. rewrite cstr_text by exact RD. reflexivity. }
    rewrite D. reflexivity.
  - assert (E : json_call Dec b (en s) names io rq = json_call Dec [] LE names io rq).
    { unfold json_call. rewrite (decode_other b (en s)) by exact S. reflexivity. }
    rewrite E. destruct json_call; [congruence|]. injection J as <- <-. discriminate.
Qed.

Lemma interp_enc names s a : forall h s1 h1 t, md s = Enc -> interp (jh Enc names) a h = (SCont s1, h1, t) -> Forall (fun ev => r_ok (snd ev) = true) t ->
  interp_at (json_host names) s a h = (SCont s1, h1).
Proof.
  induction a as [s0|e s0|u|rq k IH]; intros h s1 h1 t M X F; cbn [interp interp_at] in *; try discriminate; [injection X as <- <- <-; reflexivity|].
  destruct (jh Enc names h rq) as (h2, r) eqn:J. destruct (interp (jh Enc names) (k r) h2) as [[x h3] t'] eqn:E. injection X as -> -> <-.
  rewrite (agree_enc names s h rq h2 r M J (Forall_inv F)). eapply IH; eauto. exact (Forall_inv_tail F).
Qed.
Lemma interp_dec names s b : md s = Dec -> buf s = b -> wf_bytes b -> forall a h s1 h1 t, interp (jh Dec names) a h = (SCont s1, h1, t) -> Forall (heard b) t ->
  asks (fun rq => md s = Dec -> rq_op rq = 0x32 -> asked (buf s) (en s) rq) a -> interp_at (json_host names) s a h = (SCont s1, h1).
Proof.
  intros M B WF. induction a as [s0|e s0|u|rq k IH]; intros h s1 h1 t X F Q; cbn [interp interp_at asks] in *; try discriminate; [injection X as <- <- <-; reflexivity|].
  destruct (jh Dec names h rq) as (h2, r) eqn:J. destruct (interp (jh Dec names) (k r) h2) as [[x h3] t'] eqn:E. injection X as -> -> <-. destruct Q as (Q & QK).
  destruct (Forall_inv F) as (R & RD). rewrite (agree_dec names s b h rq h2 r M B WF J R RD); [|rewrite <- B; auto]. eapply IH; eauto. exact (Forall_inv_tail F).
Qed.

Section Runs.
  Variables (names : list (list N)) (lm : libm) (bc : list N).
  Hypothesis (WB : wf_bytes bc) (BL : lenN bc < 2 ^ 62).

  Lemma step_kept m s h s1 h1 t : Inv False s -> ip s < lenN bc -> interp (jh m names) (step lm bc s) h = (SCont s1, h1, t) ->
    md s1 = md s /\ Inv False s1 /\ (md s = Dec -> opcode_at bc s <> 0x41 -> buf s1 = buf s).
  Proof.
    intros I L X.
    pose proof (step_rel (jh m names) lm bc False True True) as SR.
    specialize (SR ltac:(intros _ h0 rq0 _; apply jh_bytes) ltac:(intros _ h0 rq0; apply jh_bytes) BL WB s h I L ltac:(contradiction)). rewrite X in SR. destruct SR as (R & _).
    split; [apply (e_md _ _ _ _ _ _ R)|]. split; [apply (e_inv _ _ _ _ _ _ R)|]. intros D O. apply (e_dec _ _ _ _ _ _ R); auto.
  Qed.

  Lemma steps_enc n s h s' h' t : steps (jh Enc names) lm bc n s h s' h' t -> md s = Enc -> Inv False s -> Forall (fun ev => r_ok (snd ev) = true) t ->
    lenN bc <= ip s' -> forall fuel, (n < fuel)%nat -> run_at (json_host names) lm bc fuel s h = (Done EOk s', h').
  Proof.
    intros S M I F L. induction S as [s h|n s h s1 h1 t1 s2 h2 t2 IL O E S IH]; intros fuel FU; (destruct fuel as [|fuel]; [lia|]); cbn [run_at].
    - destruct (N.leb_spec (lenN bc) (ip s)); [reflexivity|lia].
    - destruct (N.leb_spec (lenN bc) (ip s)); [lia|]. apply Forall_app in F as (F1 & F2). rewrite (interp_enc names s _ _ _ _ _ M E F1).
      destruct (step_kept Enc s h s1 h1 t1 I IL E) as (M1 & I1 & _). apply IH; auto; [congruence|lia].
  Qed.
  Lemma steps_dec b n s h s' h' t : steps (jh Dec names) lm bc n s h s' h' t -> md s = Dec -> buf s = b -> Inv False s -> Forall (heard b) t ->
    lenN bc <= ip s' -> forall fuel, (n < fuel)%nat -> run_at (json_host names) lm bc fuel s h = (Done EOk s', h').
  Proof.
    intros S M B I F L. induction S as [s h|n s h s1 h1 t1 s2 h2 t2 IL O E S IH]; intros fuel FU; (destruct fuel as [|fuel]; [lia|]); cbn [run_at].
    - destruct (N.leb_spec (lenN bc) (ip s)); [reflexivity|lia].
    - destruct (N.leb_spec (lenN bc) (ip s)); [lia|]. apply Forall_app in F as (F1 & F2). assert (WF : wf_bytes b) by (rewrite <- B; apply I).
      rewrite (interp_dec names s b M B WF _ _ _ _ _ E F1) by (apply step_asks; apply I).
      destruct (step_kept Dec s h s1 h1 t1 I IL E) as (M1 & I1 & BK). apply IH; auto; [congruence| |lia]. rewrite <- B. apply BK; auto. exact (proj1 O).
  Qed.
End Runs.
