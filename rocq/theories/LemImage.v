(** Images, loading and key lookups. *)
From Verif Require Import Base SpecBytes LemBase ModelWord ModelVM SpecVM LemAct LemStr ModelImage SpecImage.
Ltac Zify.zify_post_hook ::= Z.div_mod_to_equations.

Definition table (strs : list (list N)) : list N := flat_map (fun s => s ++ [0]) strs.

Lemma table_len strs : lenN (table strs) = table_bytes strs.
Proof.
  induction strs as [|s l IH]; [reflexivity|]. unfold table in *. cbn [flat_map table_bytes fold_right].
  rewrite !lenN_app, IH, lenN_cons, lenN_nil. unfold table_bytes. lia.
Qed.

Lemma cstr_text_map strs : Forall text strs -> map cstr strs = strs.
Proof. induction 1; cbn; [auto|]. now rewrite cstr_text, IHForall. Qed.

Lemma skip_text s r p : text s -> skip_string (s ++ 0 :: r) p = Ok (p + lenN s + 1).
Proof.
  intros T. revert p. induction T as [|b s Hb T IH]; intros p; cbn [app skip_string].
  - rewrite N.eqb_refl, lenN_nil. f_equal. lia.
  - destruct (N.eqb_spec b 0); [lia|]. rewrite IH, lenN_cons. f_equal. lia.
Qed.

Lemma skipn_plus {A} n m (l : list A) : skipn (n + m) l = skipn m (skipn n l).
Proof. revert l. induction n as [|n IH]; intros l; [reflexivity|]. destruct l; cbn; [now rewrite skipn_nil|apply IH]. Qed.

Lemma skipn_past {A} (l a r : list A) p : skipn (N.to_nat p) l = a ++ r -> skipn (N.to_nat (p + lenN a)) l = r.
Proof.
  intros E. replace (N.to_nat (p + lenN a)) with (N.to_nat p + length a)%nat by (unfold lenN; lia).
  rewrite skipn_plus, E, skipn_app, skipn_all, Nat.sub_diag. reflexivity.
Qed.

Lemma next_text img p s r : text s -> skipn (N.to_nat p) img = s ++ 0 :: r ->
  next_string img p = Ok (p + lenN s + 1) /\ skipn (N.to_nat (p + lenN s + 1)) img = r.
Proof.
  intros T E. unfold next_string. rewrite E, skip_text by auto. split; [reflexivity|].
  replace (p + lenN s + 1) with (p + lenN (s ++ [0])) by (rewrite lenN_app, lenN_cons, lenN_nil; lia).
  apply skipn_past. rewrite <- app_assoc. exact E.
Qed.

Lemma skip_table img strs r : Forall text strs -> forall p n, skipn (N.to_nat p) img = table strs ++ r ->
  (n <= length strs)%nat ->
  skip_strings img p n = Ok (p + table_bytes (firstn n strs)) /\
  skipn (N.to_nat (p + table_bytes (firstn n strs))) img = table (skipn n strs) ++ r.
Proof.
  induction 1 as [|s strs T F IH]; intros p n E L.
  - destruct n; [|cbn in L; lia]. cbn. rewrite N.add_0_r. auto.
  - destruct n as [|n]; [cbn; rewrite N.add_0_r; auto|].
    cbn [table flat_map] in E. fold (table strs) in E. rewrite <- !app_assoc in E. cbn [app] in E.
    destruct (next_text _ _ _ _ T E) as [A B].
    cbn [skip_strings firstn skipn table_bytes fold_right]. rewrite A. cbn [bindR].
    destruct (IH _ n B ltac:(cbn in L; lia)) as [C D]. fold (table_bytes (firstn n strs)).
    rewrite C. rewrite !N.add_assoc in *. auto.
Qed.

Lemma same_text s : text s -> forall name r, text name ->
  same_string (s ++ 0 :: r) name = Ok (if list_eq_dec N.eq_dec name s then true else false).
Proof.
  induction 1 as [|b s Hb T IH]; intros name r TN; cbn [app same_string].
  - destruct TN; [reflexivity|]. destruct (N.eqb_spec 0 x); [lia|]. destruct list_eq_dec; [discriminate|reflexivity].
  - destruct TN as [|c name HC TN].
    + destruct (N.eqb_spec b 0); [lia|]. destruct list_eq_dec; [discriminate|reflexivity].
    + destruct (N.eqb_spec b c) as [->|X].
      * rewrite IH by auto. destruct (list_eq_dec _ name s), (list_eq_dec _ (c :: name) (c :: s)); auto; congruence.
      * destruct list_eq_dec; [congruence|reflexivity].
Qed.

Lemma find_table img r name : text name -> forall strs, Forall text strs -> forall p i,
  skipn (N.to_nat p) img = table strs ++ r ->
  find_string img p name i (length strs) =
  Ok (match index_of name strs with Some j => i + j | None => 0xFFFF end).
Proof.
  intros TN. induction 1 as [|s strs T F IH]; intros p i E; [reflexivity|].
  cbn [table flat_map] in E. fold (table strs) in E. rewrite <- !app_assoc in E. cbn [app] in E.
  cbn [length find_string index_of]. rewrite E, same_text by auto. cbn [bindR].
  destruct list_eq_dec; [now rewrite N.add_0_r|].
  destruct (next_text _ _ _ _ T E) as [A B]. rewrite A. cbn [bindR]. rewrite (IH _ _ B).
  destruct (index_of name strs); cbn [option_map]; [|reflexivity]. f_equal. lia.
Qed.

Lemma pointers_table img r : forall strs, Forall text strs -> forall p,
  skipn (N.to_nat p) img = table strs ++ r ->
  exists ps, string_pointers img p (length strs) = Ok ps /\ Forall2 (string_at img) ps strs.
Proof.
  induction 1 as [|s strs T F IH]; intros p E; [exists []; split; [reflexivity|constructor]|].
  cbn [table flat_map] in E. fold (table strs) in E. rewrite <- !app_assoc in E. cbn [app] in E.
  destruct (next_text _ _ _ _ T E) as [A B]. destruct (IH _ B) as (ps & P & Q).
  cbn [length string_pointers]. rewrite A. cbn [bindR]. rewrite P. cbn [bindR]. eexists. split; [reflexivity|].
  constructor; auto. split.
  - apply (f_equal lenN) in E. rewrite lenN_skipn, lenN_app, lenN_cons in E. lia.
  - unfold sub. rewrite E. replace (N.to_nat (lenN s + 1)) with (length (s ++ [0])) by (rewrite app_length; unfold lenN; cbn; lia).
    change (0 :: table strs ++ r) with ([0] ++ table strs ++ r). rewrite app_assoc. rewrite firstn_app, firstn_all, Nat.sub_diag.
    cbn. now rewrite app_nil_r.
Qed.

Lemma string_at_table img p s r : skipn (N.to_nat p) img = s ++ 0 :: r -> string_at img p s.
Proof.
  intros E. split.
  - apply (f_equal lenN) in E. rewrite lenN_skipn, lenN_app, lenN_cons in E. lia.
  - unfold sub. rewrite E. replace (N.to_nat (lenN s + 1)) with (length (s ++ [0])) by (rewrite app_length; unfold lenN; cbn; lia).
    change (0 :: r) with ([0] ++ r). rewrite app_assoc. rewrite firstn_app, firstn_all, Nat.sub_diag.
    cbn. now rewrite app_nil_r.
Qed.

(** ** The written image *)
Section Written.
  Variables (strs : list (list N)) (bc : list N).
  Hypothesis (T : Forall text strs) (C : lenN strs <= 65535) (B : 16 + table_bytes strs < 2 ^ 32).

  Lemma sum_bytes : fold_left (fun a s => (a + (lenN (cstr s) + 1)) mod 2 ^ 32) strs 0 = table_bytes strs.
  Proof.
    clear C. assert (G : forall l a, Forall text l -> a + table_bytes l < 2 ^ 32 ->
      fold_left (fun a s => (a + (lenN (cstr s) + 1)) mod 2 ^ 32) l a = a + table_bytes l).
    { induction l as [|s l IH]; intros a F L; cbn [fold_left table_bytes fold_right] in *; [lia|].
      inversion F; subst. fold (table_bytes l) in *. rewrite cstr_text by auto.
      rewrite N.mod_small by lia. rewrite IH by (auto; lia). lia. }
    rewrite G; auto; lia.
  Qed.

  Definition header : list N :=
    [67; 78; 68; 73; 76] ++ [1] ++ le2 (lenN strs) ++ le4 16 ++ le4 (16 + table_bytes strs).
  Lemma image_eq : image strs bc = header ++ table strs ++ bc.
  Proof.
    unfold image. cbv zeta. rewrite sum_bytes. rewrite (N.mod_small (lenN strs)) by lia.
    rewrite (N.mod_small (16 + _)) by lia. unfold header. rewrite <- !app_assoc. do 5 f_equal. f_equal. 
    unfold table. clear B C. induction T as [|s l TS F IH]; [reflexivity|]. cbn [flat_map]. rewrite cstr_text by auto. now rewrite IH.
  Qed.
  Lemma header_len : lenN header = 16.
  Proof. reflexivity. Qed.
  Lemma image_len : lenN (image strs bc) = 16 + table_bytes strs + lenN bc.
  Proof. rewrite image_eq, !lenN_app, header_len, table_len. lia. Qed.

  Lemma comb_le2 v : v < 2 ^ 16 -> il_comb (le2 v) 0 = v.
  Proof.
    intros. rewrite il_comb_val; [|repeat constructor; lia]. unfold le2. cbn [le_val]. change (2 ^ 0) with 1. lia.
  Qed.
  Lemma comb_le4 v : v < 2 ^ 32 -> il_comb (le4 v) 0 = v.
  Proof.
    intros. rewrite il_comb_val; [|repeat constructor; lia]. unfold le4. cbn [le_val]. change (2 ^ 0) with 1.
    change 16777216 with (256 * 256 * 256). change 65536 with (256 * 256). rewrite <- !N.div_div by lia. lia.
  Qed.

  Definition prog : program :=
    {| pr_bytecode := 16 + table_bytes strs; pr_bytecode_len := lenN bc;
       pr_string_table := 16; pr_string_count := lenN strs |}.

  Lemma slice_header u p n : p + n <= 16 -> slice u (image strs bc) p n = Ok (sub header p n).
  Proof.
    intros L. rewrite slice_eq. destruct (N.leb_spec (p + n) (lenN (image strs bc))) as [_|X]; [|rewrite image_len in X; lia].
    f_equal. apply nthN_ext.
    - rewrite (lenN_sub header) by (rewrite header_len; lia). rewrite lenN_sub by (rewrite image_len; lia). reflexivity.
    - intros i I. rewrite lenN_sub in I by (rewrite image_len; lia). rewrite !nthN_sub by auto.
      rewrite image_eq, nthN_app, header_len. destruct (N.ltb_spec (p + i) 16); [reflexivity|lia].
  Qed.

  Lemma load_image : load_il (image strs bc) = Ok (Loaded prog).
  Proof.
    unfold load_il. rewrite image_len. destruct (N.ltb_spec (16 + table_bytes strs + lenN bc) 16); [lia|].
    unfold magic_ok. rewrite slice_header by lia. cbn [bindR].
    change (sub header 0 5) with [67; 78; 68; 73; 76]. destruct list_eq_dec; [|congruence]. cbn [negb].
    rewrite mem_eq, image_len. destruct (N.ltb_spec 5 (16 + table_bytes strs + lenN bc)); [|lia]. cbn [bindR].
    rewrite image_eq at 1. change (nthN (header ++ table strs ++ bc) 5) with 1. cbn [N.eqb Pos.eqb negb].
    unfold img_u16, img_u32. rewrite !slice_header by lia. cbn [bindR].
    change (sub header 6 2) with (le2 (lenN strs)). change (sub header 8 4) with (le4 16).
    change (sub header 12 4) with (le4 (16 + table_bytes strs)).
    rewrite comb_le2 by lia. rewrite !comb_le4 by lia.
    destruct (N.ltb_spec (16 + table_bytes strs + lenN bc) 16); [lia|].
    destruct (N.ltb_spec (16 + table_bytes strs + lenN bc) (16 + table_bytes strs)); [lia|]. cbn [orb].
    unfold prog. do 3 f_equal. lia.
  Qed.

  Lemma image_table : skipn (N.to_nat 16) (image strs bc) = table strs ++ bc.
  Proof. rewrite image_eq. reflexivity. Qed.
  Lemma image_code : skipn (N.to_nat (16 + table_bytes strs)) (image strs bc) = bc.
  Proof. rewrite <- table_len. apply skipn_past. apply image_table. Qed.

  Lemma prog_code : sub (image strs bc) (pr_bytecode prog) (pr_bytecode_len prog) = bc.
  Proof. unfold sub, prog. cbn [pr_bytecode pr_bytecode_len]. rewrite image_code. unfold lenN. rewrite Nat2N.id. apply firstn_all. Qed.

  Lemma name_of i : i < lenN strs ->
    exists p, get_key_name (image strs bc) prog i = Ok (Some p) /\ string_at (image strs bc) p (nth (N.to_nat i) strs []).
  Proof.
    intros I. unfold get_key_name. cbn [prog pr_string_count pr_string_table].
    destruct (N.leb_spec (lenN strs) i); [lia|].
    destruct (skip_table _ _ _ T 16 (N.to_nat i) image_table) as [A D]; [unfold lenN in I; lia|].
    rewrite A. cbn [bindR]. eexists. split; [reflexivity|].
    assert (N.to_nat i < length strs)%nat as I' by (unfold lenN in I; lia).
    clear A I. destruct (nth_split strs [] I') as (l1 & l2 & E & L).
    assert (E2 : skipn (N.to_nat i) strs = nth (N.to_nat i) strs [] :: l2).
    { rewrite E at 1. rewrite <- L. rewrite skipn_app, skipn_all, Nat.sub_diag. reflexivity. }
    rewrite E2 in D. cbn [table flat_map] in D. rewrite <- !app_assoc in D. cbn [app] in D.
    eapply string_at_table. exact D.
  Qed.
  Lemma name_out i : lenN strs <= i -> get_key_name (image strs bc) prog i = Ok None.
  Proof. intros I. unfold get_key_name. cbn [prog pr_string_count]. destruct (N.leb_spec (lenN strs) i); [reflexivity|lia]. Qed.
  Lemma id_of name : text name ->
    get_key_id (image strs bc) prog name = Ok (match index_of name strs with Some i => i | None => 0xFFFF end).
  Proof.
    intros TN. unfold get_key_id. cbn [prog pr_string_count pr_string_table]. rewrite cstr_text by auto.
    replace (N.to_nat (lenN strs)) with (length strs) by (unfold lenN; lia).
    rewrite (find_table _ bc _ TN strs T 16 0 image_table). destruct index_of; reflexivity.
  Qed.

  Lemma cli_load : exists ps, cli_load_il (image strs bc) = Ok (Some (16 + table_bytes strs, lenN bc, ps)) /\
    Forall2 (string_at (image strs bc)) ps strs.
  Proof.
    unfold cli_load_il. rewrite image_len. destruct (N.ltb_spec (16 + table_bytes strs + lenN bc) 16); [lia|].
    unfold magic_ok. rewrite slice_header by lia. cbn [bindR].
    change (sub header 0 5) with [67; 78; 68; 73; 76]. destruct list_eq_dec; [|congruence]. cbn [negb].
    unfold img_u16, img_u32. rewrite !slice_header by lia. cbn [bindR].
    change (sub header 6 2) with (le2 (lenN strs)). change (sub header 8 4) with (le4 16).
    change (sub header 12 4) with (le4 (16 + table_bytes strs)).
    rewrite comb_le2 by lia. rewrite !comb_le4 by lia.
    destruct (N.ltb_spec (16 + table_bytes strs + lenN bc) 16); [lia|].
    destruct (N.ltb_spec (16 + table_bytes strs + lenN bc) (16 + table_bytes strs)); [lia|]. cbn [orb].
    replace (N.to_nat (lenN strs)) with (length strs) by (unfold lenN; lia).
    destruct (pointers_table _ bc strs T 16 image_table) as (ps & P & Q). rewrite P. cbn [bindR].
    exists ps. split; auto. do 4 f_equal. lia.
  Qed.
End Written.

(** ** Any image *)
Lemma load_spec img : wf_bytes img ->
  (header_ok img -> load_il img = Ok (Loaded
     {| pr_bytecode := val_of LE (sub img 12 4); pr_bytecode_len := lenN img - val_of LE (sub img 12 4);
        pr_string_table := val_of LE (sub img 8 4); pr_string_count := val_of LE (sub img 6 2) |})) /\
  (~ header_ok img -> exists e, load_il img = Ok (LoadErr e)).
Proof.
  intros W. unfold load_il, header_ok.
  destruct (N.ltb_spec (lenN img) 16) as [L|L].
  { split; [intros (X & _); lia|eauto]. }
  assert (SL : forall p n, p + n <= 16 -> slice UIl img p n = Ok (sub img p n)).
  { intros p n X. rewrite slice_eq. destruct (N.leb_spec (p + n) (lenN img)); [reflexivity|lia]. }
  assert (CM : forall p n, il_comb (sub img p n) 0 = val_of LE (sub img p n)).
  { intros p n. rewrite il_comb_val by (now apply wf_sub). change (2 ^ 0) with 1. cbn. lia. }
  unfold magic_ok, img_u16, img_u32. rewrite !SL by lia. cbn [bindR]. rewrite !CM.
  destruct list_eq_dec as [E|E]; cbn [negb]; [|split; [intros (_ & X & _); congruence|eauto]].
  rewrite mem_eq. destruct (N.ltb_spec 5 (lenN img)); [|lia]. cbn [bindR].
  destruct (N.eqb_spec (nthN img 5) 1) as [V|V]; cbn [negb]; [|split; [intros (_ & _ & X & _); congruence|eauto]].
  destruct (N.ltb_spec (lenN img) (val_of LE (sub img 8 4))) as [A|A]; cbn [orb].
  { split; [intros (_ & _ & _ & X & _); lia|eauto]. }
  destruct (N.ltb_spec (lenN img) (val_of LE (sub img 12 4))) as [A'|A'].
  { split; [intros (_ & _ & _ & _ & X); lia|eauto]. }
  split; [reflexivity|]. intros X. exfalso. apply X. auto.
Qed.

Lemma skip_nul l p : 1 <= lenN (filter (N.eqb 0) l) -> exists q r, skip_string l p = Ok q /\ p < q /\
  skipn (N.to_nat (q - p)) l = r /\ lenN (filter (N.eqb 0) l) = 1 + lenN (filter (N.eqb 0) r).
Proof.
  revert p. induction l as [|b l IH]; intros p L; [cbn in L; lia|].
  cbn [skip_string filter] in *. replace (0 =? b) with (b =? 0) in * by apply N.eqb_sym. destruct (N.eqb_spec b 0) as [->|X].
  - exists (p + 1), l. split; [reflexivity|]. split; [lia|]. replace (N.to_nat (p + 1 - p)) with 1%nat by lia.
    split; [reflexivity|]. rewrite lenN_cons. lia.
  - destruct (IH (p + 1) L) as (q & r & A & B & C & D). exists q, r. split; [auto|]. split; [lia|].
    replace (N.to_nat (q - p)) with (S (N.to_nat (q - (p + 1)))) by lia. auto.
Qed.

Lemma next_nul img p : 1 <= nuls img p -> exists q, next_string img p = Ok q /\ nuls img p = 1 + nuls img q.
Proof.
  intros L. unfold next_string, nuls in *. destruct (skip_nul _ p L) as (q & r & A & B & C & D).
  exists q. split; auto. rewrite D. repeat f_equal. rewrite <- C, <- skipn_plus. f_equal. lia.
Qed.

Lemma same_nul l : 1 <= lenN (filter (N.eqb 0) l) -> forall name, text name -> exists b, same_string l name = Ok b.
Proof.
  induction l as [|b l IH]; intros L name T; [cbn in L; lia|]. cbn [same_string filter] in *.
  destruct T as [|c n HC T]; [eauto|]. destruct (N.eqb_spec b c) as [->|]; [|eauto].
  destruct (N.eqb_spec 0 c); [lia|]. apply IH; auto.
Qed.

Lemma skip_strings_ok img n : forall p, N.of_nat n <= nuls img p -> exists q, skip_strings img p n = Ok q.
Proof.
  induction n as [|n IH]; intros p L; cbn [skip_strings]; [eauto|].
  destruct (next_nul img p ltac:(lia)) as (q & A & B). rewrite A. cbn [bindR]. apply IH. lia.
Qed.
Lemma find_string_ok img name n : text name -> forall p i, N.of_nat n <= nuls img p -> exists q, find_string img p name i n = Ok q.
Proof.
  intros T. induction n as [|n IH]; intros p i L; cbn [find_string]; [eauto|].
  destruct (same_nul (skipn (N.to_nat p) img) ltac:(unfold nuls in L; lia) name T) as [b ->]. cbn [bindR]. destruct b; [eauto|].
  destruct (next_nul img p ltac:(lia)) as (q & A & B). rewrite A. cbn [bindR]. apply IH. lia.
Qed.

Lemma text_of_cstr x : text (cstr x).
Proof. induction x as [|b x IH]; cbn; [constructor|]. destruct (N.eqb_spec (b mod 256) 0); constructor; auto; lia. Qed.

Lemma lookups_ok img pr : pr_string_count pr <= nuls img (pr_string_table pr) ->
  (forall i, exists q, get_key_name img pr i = Ok q) /\ (forall name, exists q, get_key_id img pr name = Ok q).
Proof.
  intros L. split.
  - intros i. unfold get_key_name. destruct (N.leb_spec (pr_string_count pr) i); [eauto|].
    destruct (skip_strings_ok img (N.to_nat i) (pr_string_table pr) ltac:(lia)) as [q ->]. cbn. eauto.
  - intros name. unfold get_key_id. apply find_string_ok; [apply text_of_cstr|lia].
Qed.

Lemma index_nth strs i : NoDup strs -> i < lenN strs -> index_of (nth (N.to_nat i) strs []) strs = Some i.
Proof.
  intros ND. revert i. induction ND as [|s l X ND IH]; intros i I; [cbn in I; lia|]. cbn [index_of].
  destruct (N.eq_dec i 0) as [->|Z].
  - change (N.to_nat 0) with 0%nat. cbn [nth]. destruct (list_eq_dec N.eq_dec s s); [reflexivity|congruence].
  - replace (N.to_nat i) with (S (N.to_nat (i - 1))) by lia. cbn [nth]. rewrite lenN_cons in I.
    destruct (list_eq_dec N.eq_dec (nth (N.to_nat (i - 1)) l []) s) as [E|E].
    + exfalso. apply X. rewrite <- E. apply nth_In. unfold lenN in I. lia.
    + rewrite IH by lia. cbn. f_equal. lia.
Qed.
Lemma index_none name strs : ~ In name strs -> index_of name strs = None.
Proof.
  induction strs as [|s l IH]; intros X; [reflexivity|]. cbn [index_of]. destruct list_eq_dec as [->|]; [exfalso; apply X; now left|].
  rewrite IH; [reflexivity|]. intros Y. apply X. now right.
Qed.

Lemma nuls_table img strs r : Forall text strs -> forall p, skipn (N.to_nat p) img = table strs ++ r ->
  lenN strs <= nuls img p.
Proof.
  intros F p E. unfold nuls. rewrite E. clear E. induction F as [|s l T F IH]; [rewrite lenN_nil; lia|].
  cbn [table flat_map]. fold (table l). rewrite <- !app_assoc. cbn [app]. rewrite filter_app, lenN_app. cbn [filter N.eqb].
  rewrite !lenN_cons. lia.
Qed.
Lemma written_lookups strs bc pr : Forall text strs -> lenN strs <= 65535 -> 16 + table_bytes strs < 2 ^ 32 ->
  load_il (image strs bc) = Ok (Loaded pr) ->
  (forall i, exists q, get_key_name (image strs bc) pr i = Ok q) /\
  (forall name, exists q, get_key_id (image strs bc) pr name = Ok q).
Proof.
  intros T C B L. rewrite load_image in L by auto. injection L as <-. apply lookups_ok.
  cbn [prog pr_string_count pr_string_table]. eapply nuls_table; [exact T|]. now apply image_table.
Qed.
