(** Every byte string is read as one message, or refused. *)
From Coq Require Import ZifyBool ZifyNat ZifyN.
From Verif Require Import Base SpecBytes ModelWord ModelFloat ModelTrans ModelVM SpecVM LemBase LemWord LemAct LemInstr LemField LemCheck LemStr LemArr LemFlow LemImage SpecParse SpecNames SpecPacket SpecFlow
  LemSend SpecMessage LemMessage SpecNest LemNest LemNestRun SpecRead LemReadBytes LemReadVM.
Ltac Zify.zify_post_hook ::= Z.div_mod_to_equations.

Lemma definite_skips names m : forall d, definite names m -> tree_ok m d -> tree_skips names m d.
Proof.
  induction m as [f|os x n b IH] using member_induction; intros [d|gs] D K; cbn [definite tree_ok tree_skips] in *; try contradiction.
  - intros ->. destruct (f_content f) as [ty [|n|w]|mx|w]; cbn [datum_ok may_be_empty] in *; try contradiction; apply D; auto. change (lenN []) with 0 in K. lia.
  - destruct D as (_ & E & D), K as (X & K). split.
    + intros ->. apply E. destruct x; cbn [extent_ok may_be_empty] in *; change (lenN []) with 0 in *; [lia|lia|exact Logic.I].
    + apply every_forall. apply every_forall in K. eapply Forall_impl; [|exact K]. cbv beta. clear -IH D. induction IH as [|a b A F IH]; intros [|t g] E; cbn [every every2] in *; try contradiction; auto.
      destruct D, E. split; auto.
Qed.
Lemma members_skip names b : forall ds, every (definite names) b -> every2 tree_ok b ds -> every2 (tree_skips names) b ds.
Proof. induction b as [|a b IH]; intros [|d ds] D K; cbn [every every2] in *; try contradiction; auto. destruct D, K. split; [now apply definite_skips|auto]. Qed.

(** ** Deciding about numbers *)
Lemma numbers_decide o ty n : 0x10 <= ty <= 0x1A -> forall old, wf_bytes old ->
  (exists vs rest, length vs = n /\ Forall (number_ok ty) vs /\ old = numbers o ty vs ++ rest) \/
  (exists vs rest, (length vs < n)%nat /\ Forall (number_ok ty) vs /\ old = numbers o ty vs ++ rest /\ lenN rest < width ty) \/
  (exists vs v rest, (length vs < n)%nat /\ Forall (number_ok ty) vs /\ old = numbers o ty vs ++ v :: rest /\ ty = 0x1A /\ 1 < v).
Proof.
  intros TY. induction n as [|n IH]; intros old W; [left; exists [], old; repeat split; constructor|].
  destruct (N.ltb_spec (lenN old) (width ty)) as [S|G]; [right; left; exists [], old; repeat split; [cbn; lia|constructor|exact S]|].
  set (a := firstn (N.to_nat (width ty)) old). set (r := skipn (N.to_nat (width ty)) old). assert (E : old = a ++ r) by (symmetry; apply firstn_skipn).
  assert (LA : length a = N.to_nat (width ty)) by (unfold a; rewrite firstn_length; unfold lenN in G; lia).
  assert (WA : wf_bytes a) by (rewrite E in W; now apply Forall_app in W). assert (WR : wf_bytes r) by (rewrite E in W; now apply Forall_app in W).
  assert (BA : bytes_of o (N.to_nat (width ty)) (val_of o a) = a) by (rewrite <- LA; now apply bytes_val).
  assert (VB : val_of o a < 2 ^ (8 * width ty)).
  { pose proof (val_of_bound o a WA) as B. unfold lenN in B. rewrite LA, N2Nat.id in B. change 256 with (2 ^ 8) in B. now rewrite <- N.pow_mul_r in B. }
  destruct (N.eq_dec ty 0x1A) as [EB|NB].
  - rewrite EB in *. change (width 26) with 1 in *. destruct a as [|v [|v2 a2]]; [discriminate LA| |discriminate LA]. assert (VV : val_of o [v] = v) by (unfold val_of, le_val; destruct o; cbn; lia).
    destruct (N.leb_spec v 1) as [V|V].
    + assert (VK : number_ok 0x1A v) by (split; [change (width 26) with 1; rewrite VV in VB; exact VB|auto]).
      assert (C : forall vs rest, r = numbers o 26 vs ++ rest -> old = numbers o 26 (v :: vs) ++ rest).
      { intros vs rest ->. unfold numbers. cbn [flat_map]. change (width 26) with 1. rewrite <- app_assoc. rewrite VV in BA. rewrite BA. exact E. }
      destruct (IH r WR) as [(vs & rest & L & F & X)|[(vs & rest & L & F & X & S)|(vs & v2 & rest & L & F & X & T & V2)]].
      * left. exists (v :: vs), rest. split; [cbn; lia|]. split; [auto|]. now apply C.
      * right. left. exists (v :: vs), rest. split; [cbn; lia|]. split; [auto|]. split; [now apply C|exact S].
      * right. right. exists (v :: vs), v2, rest. split; [cbn; lia|]. split; [auto|]. split; [now apply C|auto].
    + right. right. exists [], v, r. split; [cbn; lia|]. split; [constructor|]. split; [exact E|auto].
  - assert (VK : number_ok ty (val_of o a)) by (split; [exact VB|contradiction]).
    assert (C : forall vs rest, r = numbers o ty vs ++ rest -> old = numbers o ty (val_of o a :: vs) ++ rest).
    { intros vs rest X. unfold numbers. cbn [flat_map]. rewrite BA, <- app_assoc. rewrite E at 1. f_equal. exact X. }
    destruct (IH r WR) as [(vs & rest & L & F & X)|[(vs & rest & L & F & X & S)|(vs & v2 & rest & L & F & X & T & V2)]]; [| |contradiction].
    + left. exists (val_of o a :: vs), rest. split; [cbn; lia|]. split; [auto|]. now apply C.
    + right. left. exists (val_of o a :: vs), rest. split; [cbn; lia|]. split; [auto|]. split; [now apply C|exact S].
Qed.
Lemma numbers_app o ty a b : numbers o ty (a ++ b) = numbers o ty a ++ numbers o ty b.
Proof. apply flat_map_app. Qed.
(** Numbers that are cut off can be completed *)
Lemma numbers_fill o ty n vs rest : 0x10 <= ty <= 0x1A -> (length vs < n)%nat -> Forall (number_ok ty) vs -> wf_bytes rest -> lenN rest < width ty ->
  exists more us, more <> [] /\ length us = n /\ Forall (number_ok ty) us /\ (numbers o ty vs ++ rest) ++ more = numbers o ty us.
Proof.
  intros TY L F W S. destruct (fill_number o ty rest TY W S) as (v & more & NE & VK & E). set (z := repeat 0 (n - length vs - 1)).
  exists (more ++ numbers o ty z), (vs ++ v :: z). split; [destruct more; [easy|discriminate]|]. split; [rewrite app_length; cbn [length]; unfold z; rewrite repeat_length; lia|]. split.
  - apply Forall_app. split; [exact F|]. constructor; [exact VK|apply numbers_zero].
  - rewrite numbers_app. unfold numbers at 4. cbn [flat_map]. fold (numbers o ty z). rewrite <- E, <- !app_assoc. reflexivity.
Qed.
(** A wrong boolean cannot *)
Lemma bool_apart o vs v rest us r : Forall (number_ok 0x1A) vs -> Forall (number_ok 0x1A) us -> (length vs < length us)%nat -> 1 < v ->
  numbers o 0x1A vs ++ v :: rest = numbers o 0x1A us ++ r -> False.
Proof.
  revert us. induction vs as [|a vs IH]; intros us F G L V E; (destruct us as [|u us]; [cbn in L; lia|]).
  - unfold numbers in E. cbn [flat_map app] in E. destruct (Forall_inv G) as (B & X). specialize (X eq_refl). change (N.to_nat (width 26)) with 1%nat in E. change (2 ^ (8 * width 26)) with 256 in B. rewrite byte_self in E by exact B.
    injection E as E _. lia.
  - unfold numbers in E. cbn [flat_map] in E. rewrite <- !app_assoc in E. destruct (Forall_inv F) as (B & X), (Forall_inv G) as (B' & X').
    apply bytes_apart in E as (_ & E); [|rewrite N2Nat.id; assumption|rewrite N2Nat.id; assumption]. apply (IH us); [eapply Forall_inv_tail; eassumption|eapply Forall_inv_tail; eassumption|cbn [length] in L; lia|exact V|exact E].
Qed.

Lemma fits_dec (bs rest : list N) : fits Dec bs (bs ++ rest).
Proof. split; [rewrite lenN_app; lia|]. intros _. unfold after. now rewrite skipn_front. Qed.

Section Reads.
  Context {H : Type} (host : H -> request -> H * reply) (lm : libm) (bc : list N) (WB : wf_bytes bc).
  Hypothesis LI : listens host.
  Notation steps := (steps host lm bc).
  Notation fails := (fails host lm bc).

  (** ** What a listening host says *)
  Lemma hear h rq : exists h' r, host h rq = (h', r) /\ r_ok r = true /\ r_bytes r = [] /\ forall n d, answer n d r = d.
  Proof.
    destruct (host h rq) as [h' r] eqn:E. exists h', r. pose proof (LI h rq) as X. rewrite E in X. cbn [snd] in X. cbv zeta in X. destruct X as (A & B & C). repeat split; auto.
    intros n d. unfold answer. now rewrite B.
  Qed.
  Lemma hear_each k ty vs : forall h, exists t h', told_each k ty vs t /\ plays host h t h'.
  Proof.
    induction vs as [|v vs IH]; intros h; [exists [], h; split; constructor|]. destruct (hear h (value_call k ty v)) as (h1 & r & E & O & _). destruct (IH h1) as (t & h' & T & P).
    exists ((value_call k ty v, r) :: t), h'. split; [constructor; auto|econstructor; eauto].
  Qed.
  Lemma hear_all k ty pos vs : forall h, exists t h', told_all k ty pos vs t /\ plays host h t h'.
  Proof.
    intros h. destruct vs as [|v vs]; [exists [], h; split; constructor|]. assert (NE : v :: vs <> []) by discriminate. set (l := v :: vs) in *.
    assert (D : byte_type ty \/ ~ byte_type ty) by (unfold byte_type; lia). destruct D as [D|D].
    - destruct (hear h (ask k 0x39 (PBuf pos l) (HRaw (lenN l)))) as (h' & r & E & O & B & _). eexists [_], h'. split; [apply (tall_at_once _ _ _ l r); auto|]. econstructor; [exact E|constructor].
    - destruct (hear_each k ty l h) as (t & h1 & T & P). destruct (hear h1 end_call) as (h' & r & E & O & _). exists (t ++ [(end_call, r)]), h'. split; [now apply tall_singly|].
      eapply plays_join; [exact P|]. econstructor; [exact E|constructor].
  Qed.
  Lemma hear_datum k pos c d : datum_ok c d -> forall h, exists t h', told k pos c d t /\ plays host h t h'.
  Proof.
    intros D h. destruct c as [ty [|n|w]|mx|w], d as [v|vs|l]; cbn [datum_ok] in D; try contradiction.
    - destruct (hear h (value_call k ty v)) as (h' & r & E & O & _). eexists [_], h'. split; [apply (tell_one _ _ ty v r O)|econstructor; [exact E|constructor]].
    - destruct (hear h (ask k 0x34 (cvar 4 n) HCount)) as (h1 & r & E & O & _ & A). destruct (hear_all k ty pos vs h1) as (t & h' & T & P).
      eexists (_ :: t), h'. split; [apply (tell_fixed _ _ ty n vs r t); auto|econstructor; [exact E|exact P]].
    - destruct (hear h (ask k (array_op w) (cvar w (lenN vs)) HCount)) as (h1 & r & E & O & _ & A). destruct (hear_all k ty (pos + w) vs h1) as (t & h' & T & P).
      eexists (_ :: t), h'. split; [apply (tell_counted _ _ ty w vs r t); auto|econstructor; [exact E|exact P]].
    - destruct (hear h (ask k 0x30 (PBuf pos l) (HString 0x30 mx))) as (h' & r & E & O & B & _). eexists [_], h'. split; [apply (tell_text _ _ mx l r); auto|econstructor; [exact E|constructor]].
    - destruct (hear h (ask k (string_op w) (PBuf (pos + w) l) (HString (string_op w) (2 ^ (8 * w) - 1)))) as (h' & r & E & O & B & _).
      eexists [_], h'. split; [apply (tell_counted_text _ _ w l r); auto|econstructor; [exact E|constructor]].
  Qed.

  Variables (id : list N -> N) (names : N).
  Hypothesis NM : names <= 65536.
  Definition heard (m : member) : Prop := forall d, tree_ok m d -> forall h pre pos old, exists z t h', said Dec id pre pos old m d z t /\ plays host h t h'.
  Lemma hear_members_of b : Forall heard b -> forall ds, every2 tree_ok b ds -> forall h pre pos old, exists z t h', said_members Dec id pre pos old b ds z t /\ plays host h t h'.
  Proof.
    induction 1 as [|a b A F IH]; intros [|d ds] K h pre pos old; cbn [every2] in K; try contradiction.
    - exists 0, [], h. split; constructor.
    - destruct K as (K & KS). destruct (A d K h pre pos old) as (z1 & t1 & h1 & S1 & P1). destruct (IH ds KS h1 pre (pos + z1) (skipn (N.to_nat z1) old)) as (z2 & t2 & h2 & S2 & P2).
      exists (z1 + z2), (t1 ++ t2), h2. split; [econstructor; eauto|eapply plays_join; eauto].
  Qed.
  Lemma hear_groups_of b : Forall heard b -> forall gs, every (fun g => every2 tree_ok b g) gs -> forall h pre pos old n, exists z t h', said_groups Dec id pre pos old n b gs z t /\ plays host h t h'.
  Proof.
    intros F. induction gs as [|g gs IH]; intros K h pre pos old n; cbn [every] in K.
    - exists 0, [], h. split; constructor.
    - destruct K as (K & KS). destruct (hear h (enter_call (id (pre ++ n)))) as (h1 & r & E1 & O1 & _).
      destruct (hear_members_of b F g K h1 (inside pre n) pos old) as (z1 & t1 & h2 & S1 & P1). destruct (hear h2 leave_call) as (h3 & r' & E2 & O2 & _).
      destruct (IH KS h3 pre (pos + z1) (skipn (N.to_nat z1) old) n) as (z2 & t2 & h4 & S2 & P2).
      exists (z1 + z2), ((enter_call (id (pre ++ n)), r) :: t1 ++ (leave_call, r') :: t2), h4. split; [econstructor; eauto|].
      econstructor; [exact E1|]. eapply plays_join; [exact P1|]. econstructor; [exact E2|exact P2].
  Qed.
  Lemma hear_count k x c : extent_ok x c -> forall h, exists t h', counts Dec k x c t /\ plays host h t h'.
  Proof.
    intros X h. destruct x as [|n|w]; cbn [counts].
    - exists [], h. split; [reflexivity|constructor].
    - destruct (hear h (ask k 0x34 (cvar 4 n) HCount)) as (h1 & r & E & O & _ & A). eexists _, h1. split; [exists r; split; [exact O|split; [apply A|reflexivity]]|econstructor; [exact E|constructor]].
    - destruct (hear h (ask k (array_op w) (cvar w c) HCount)) as (h1 & r & E & O & _ & A). eexists _, h1. split; [exists r; split; [exact O|split; [apply A|reflexivity]]|econstructor; [exact E|constructor]].
  Qed.
  Lemma hear_end x c h : exists t h', ends x c t /\ plays host h t h'.
  Proof.
    assert (Z : exists t h', t = [] /\ plays host h t h') by (exists [], h; split; [reflexivity|constructor]).
    assert (L : exists t h', (exists r, r_ok r = true /\ t = [(end_call, r)]) /\ plays host h t h').
    { destruct (hear h end_call) as (h1 & r & E & O & _). eexists _, h1. split; [exists r; split; [exact O|reflexivity]|econstructor; [exact E|constructor]]. }
    unfold ends. destruct x; [exact Z| |]; destruct (c =? 0); auto.
  Qed.
  Lemma hear_member m : heard m.
  Proof.
    induction m as [f|os x n b IH] using member_induction; intros [d|gs] K h pre pos old; cbn [tree_ok] in K; try contradiction.
    - destruct (hear_datum (id (pre ++ f_name f)) pos _ _ K h) as (t & h' & T & P). eexists _, t, h'. split; [constructor; exact T|exact P].
    - destruct K as (X & K). destruct (hear_count (id (pre ++ n)) x (lenN gs) X h) as (t1 & h1 & C & P1).
      destruct (hear_groups_of b IH gs K h1 pre (pos + extent_size x) (skipn (N.to_nat (extent_size x)) old) n) as (z & t2 & h2 & S & P2).
      destruct (hear_end x (lenN gs) h2) as (t3 & h3 & E & P3). eexists _, (t1 ++ t2 ++ t3), h3. split; [econstructor; eauto|]. eapply plays_join; [exact P1|]. eapply plays_join; eauto.
  Qed.
  Lemma hear_members b ds : every2 tree_ok b ds -> forall h pre pos old, exists z t h', said_members Dec id pre pos old b ds z t /\ plays host h t h'.
  Proof. apply hear_members_of. apply Forall_forall. intros m _. apply hear_member. Qed.

  (** ** Going on when the bytes are there *)
  Lemma go_member a d pre q s o L p rest h : member_plain a -> small id names (member_names pre a) -> depth a + lenN L <= 8 -> definite names a -> tree_ok a d ->
    placed bc q (code (member_instrs id pre a)) -> let bs := fst (member_bytes a d o) in at_point s Dec o q L (p ++ bs ++ rest) (lenN p) -> wf_bytes (p ++ bs ++ rest) ->
    exists n s' h' t, steps n s h s' h' t /\ at_point s' Dec (snd (member_bytes a d o)) (q + lenN (code (member_instrs id pre a))) L (p ++ bs ++ rest) (lenN p + lenN bs).
  Proof.
    intros MP SM DL DF TO P bs AT WF. destruct (hear_member a d TO h pre (lenN p) (bs ++ rest)) as (z & t & h' & S & PL).
    destruct (proj1 (said_runs host lm bc WB Dec id names NM) _ _ _ _ _ _ _ S q s o L p h h' MP SM DL TO (definite_skips _ _ _ DF TO) P AT eq_refl WF (fits_dec _ _) PL) as (n & s' & S' & AT').
    exists n, s', h', t. split; [exact S'|]. pose proof (proj1 (said_sizes Dec id) _ _ _ _ _ _ _ S o) as Z. fold bs in Z, AT'. rewrite Z. destruct (fits_dec bs rest) as (_ & F). rewrite F in AT' by reflexivity. exact AT'.
  Qed.
  Lemma go_members b ds pre q s o L p rest h : every member_plain b -> small id names (flat_map (member_names pre) b) -> fold_right N.max 0 (map depth b) + lenN L <= 8 ->
    every (definite names) b -> every2 tree_ok b ds ->
    placed bc q (code (flat_map (member_instrs id pre) b)) -> let bs := fst (members_bytes b ds o) in at_point s Dec o q L (p ++ bs ++ rest) (lenN p) -> wf_bytes (p ++ bs ++ rest) ->
    exists n s' h' t, steps n s h s' h' t /\ at_point s' Dec (snd (members_bytes b ds o)) (q + lenN (code (flat_map (member_instrs id pre) b))) L (p ++ bs ++ rest) (lenN p + lenN bs).
  Proof.
    intros MP SM DL DF TO P bs AT WF. destruct (hear_members b ds TO h pre (lenN p) (bs ++ rest)) as (z & t & h' & S & PL).
    destruct (proj2 (proj2 (said_runs host lm bc WB Dec id names NM)) _ _ _ _ _ _ _ S q s o L p h h' MP SM DL TO (members_skip _ _ _ DF TO) P AT eq_refl WF (fits_dec _ _) PL) as (n & s' & S' & AT').
    exists n, s', h', t. split; [exact S'|]. pose proof (proj2 (proj2 (said_sizes Dec id)) _ _ _ _ _ _ _ S o) as Z. fold bs in Z, AT'. rewrite Z. destruct (fits_dec bs rest) as (_ & F). rewrite F in AT' by reflexivity. exact AT'.
  Qed.

  (** ** Verdicts *)
  Definition short {T} (ok : T -> Prop) (bytes : T -> list N) (old : list N) : Prop := exists more d, more <> [] /\ ok d /\ old ++ more = bytes d.
  Definition bad {T} (ok : T -> Prop) (bytes : T -> list N) (old : list N) : Prop := forall more d rest, ok d -> old ++ more <> bytes d ++ rest.
  Definition verdict {T} (ok : T -> Prop) (bytes : T -> list N) (old : list N) (s : st) (h : H) : Prop :=
    (exists d rest, ok d /\ old = bytes d ++ rest) \/ (fails s h EOob /\ short ok bytes old) \/ (fails s h EValidation /\ bad ok bytes old).
  Lemma verdict_later {T} (ok : T -> Prop) bytes old n s h s1 h1 t : steps n s h s1 h1 t -> verdict ok bytes old s1 h1 -> verdict ok bytes old s h.
  Proof. intros S [A|[(A & B)|(A & B)]]; [now left|right; left|right; right]; (split; [|exact B]); eapply fails_after; eauto. Qed.

  (** ** Arrays *)
  Lemma count_decide o x old : x <> One -> bounded x -> extent_wf x -> wf_bytes old ->
    (exists c rest, extent_ok x c /\ c < eof_mark /\ old = extent_bytes o x c ++ rest) \/ (exists w, x = Counted w /\ counter w /\ lenN old < w).
  Proof.
    intros NX B W WF. destruct x as [|n|w]; [easy| |]; cbn [bounded extent_wf extent_ok extent_bytes] in *.
    - left. exists n, old. repeat split; [lia|unfold eof_mark; lia].
    - assert (CW : counter w) by (unfold counter; cbn [In] in W; intuition). destruct (N.ltb_spec (lenN old) w) as [S|G]; [right; eauto|left].
      set (a := firstn (N.to_nat w) old). exists (val_of o a), (skipn (N.to_nat w) old).
      assert (LA : length a = N.to_nat w) by (unfold a; rewrite firstn_length; unfold lenN in G; lia).
      assert (E : old = a ++ skipn (N.to_nat w) old) by (symmetry; apply firstn_skipn). assert (WA : wf_bytes a) by (rewrite E in WF; now apply Forall_app in WF).
      assert (V : val_of o a < 2 ^ (8 * w)).
      { pose proof (val_of_bound o a WA) as V. unfold lenN in V. rewrite LA, N2Nat.id in V. change 256 with (2 ^ 8) in V. now rewrite <- N.pow_mul_r in V. }
      assert (P : 2 ^ (8 * w) <= 65536) by (cbn [In] in W; destruct W as [<-|[<-|[<-|[]]]]; vm_compute; try discriminate; lia).
      split; [split; [exact V|lia]|]. split; [unfold eof_mark; lia|]. rewrite <- LA, bytes_val by exact WA. rewrite LA. exact E.
  Qed.
  Lemma loop_begins q x k c s h o L p old : x <> One -> placed bc q (code [head x k]) -> k < 65536 -> extent_ok x c -> extent_wf x -> lenN L < 8 -> 0 < c -> opt s = false ->
    at_point s Dec o q L (p ++ extent_bytes o x c ++ old) (lenN p) -> wf_bytes (p ++ extent_bytes o x c ++ old) ->
    let qb := q + lenN (code [head x k]) in
    (forall y, ip y = qb -> ~ byte_elements bc y \/ lenN old < c) ->
    exists s1 h1 t, steps 1 s h s1 h1 t /\ at_point s1 Dec o qb ((qb, c) :: L) (p ++ extent_bytes o x c ++ old) (lenN p + lenN (extent_bytes o x c)) /\ opt s1 = false.
  Proof.
    intros NX P K XO XW LL C0 OP AT WF qb NB. destruct (hear_count k x c XO h) as (t & h1 & C & PL).
    destruct (array_head host bc _ _ _ _ _ _ _ _ _ _ _ _ _ NX P K XO XW C PL AT (fits_dec _ _)) as (y & AS & IL & ATY).
    destruct (fits_dec (extent_bytes o x c) old) as (_ & FA). rewrite FA in ATY by reflexivity. clear FA. fold qb in ATY. rewrite <- (extent_len o x c) in ATY.
    assert (B8 : boff s < 8) by (destruct (at_point_byte _ _ _ _ _ _ _ AT); auto). assert (WS : wf_bytes (buf s)) by (destruct AT as (_ & _ & -> & _); exact WF).
    pose proof ATY as ((Y1 & Y2 & Y3 & Y4 & Y5) & Z1 & Z2 & Z3).
    assert (S1 : steps 1 s h (set_loops y ((qb, c) :: L)) h1 (t ++ [])).
    { eapply steps_one; [exact IL|eapply starts_op; eauto|]. eapply header_enters; eauto. rewrite enter_loop; [|exact C0|].
      - rewrite push_loop by (rewrite Z1; exact LL). rewrite Y5, Z1. reflexivity.
      - destruct (NB y Y5) as [A|A]; [now left|right]. rewrite Z2, Z3, !lenN_app. lia. }
    exists (set_loops y ((qb, c) :: L)), h1, (t ++ []). split; [exact S1|]. split; [|exact (steps_opt host lm bc _ _ _ _ _ _ WB S1 OP)].
    unfold at_point, ready. cbn [md tr boff en ip loops buf cur set_loops]. repeat split; auto.
  Qed.
  (** Some of the elements *)
  Lemma each_part b ty k o L : placed bc b (code [ins ty [k] []; ins 0x38 [] []]) -> 0x10 <= ty <= 0x1A -> k < 65536 ->
    forall vs, Forall (number_ok ty) vs -> forall c, lenN vs < c -> c < eof_mark ->
    forall s h pre rest, at_point s Dec o b ((b, c) :: L) (pre ++ numbers o ty vs ++ rest) (lenN pre) -> wf_bytes (pre ++ numbers o ty vs ++ rest) ->
    exists n s' h' t, steps n s h s' h' t /\ at_point s' Dec o b ((b, c - lenN vs) :: L) (pre ++ numbers o ty vs ++ rest) (lenN (pre ++ numbers o ty vs)).
  Proof.
    intros P TY K vs F. induction F as [|v vs VO F IH]; intros c L1 L2 s h pre rest AT WF.
    - exists 0%nat, s, h, []. split; [constructor|]. change (lenN []) with 0. rewrite N.sub_0_r. unfold numbers. cbn [flat_map]. rewrite app_nil_r. exact AT.
    - destruct (element_code _ _ _ _ P) as (P1 & P2). rewrite lenN_cons in *. unfold numbers in AT, WF |- *. cbn [flat_map] in AT, WF |- *. fold (numbers o ty vs) in AT, WF |- *. rewrite <- app_assoc in AT, WF |- *.
      set (bs := bytes_of o (N.to_nat (width ty)) v) in *. assert (LB : lenN bs = width ty) by (unfold bs; rewrite lenN_bytes_of; lia).
      destruct (hear h (value_call k ty v)) as (h1 & r & HH & HR & _).
      assert (WS : wf_bytes (buf s)) by (destruct AT as (_ & _ & -> & _); exact WF).
      destruct (scalar_dec host lm bc WB b ty k s h h1 r o _ pre (numbers o ty vs ++ rest) v P1 TY K AT WS VO HH HR) as (s1 & S1 & AT1). fold bs in AT1.
      destruct (end_steps_again host lm bc s1 h1 b c o Dec L _ _ P2 ltac:(lia) AT1) as (s2 & S2 & AT2). rewrite app_assoc in AT2, WF.
      replace (lenN pre + width ty) with (lenN (pre ++ bs)) in AT2 by (rewrite lenN_app; lia).
      destruct (IH (c - 1) ltac:(lia) ltac:(lia) s2 h1 _ _ AT2 WF) as (n & s3 & h3 & t & S3 & AT3).
      do 4 eexists. split; [eapply steps_trans; [exact S1|eapply steps_trans; [exact S2|exact S3]]|].
      replace (c - (lenN vs + 1)) with (c - 1 - lenN vs) by lia. rewrite <- !app_assoc in AT3. exact AT3.
  Qed.
  Definition array_ok (ty c : N) (vs : list N) : Prop := lenN vs = c /\ Forall (number_ok ty) vs.
  Lemma elements_read b ty k o L c s p old : placed bc b (code [ins ty [k] []; ins 0x38 [] []]) -> 0x10 <= ty <= 0x1A -> k < 65536 -> 0 < c < eof_mark -> wf_bytes (p ++ old) ->
    (exists d rest, array_ok ty c d /\ old = numbers o ty d ++ rest) \/
    ((~ byte_type ty \/ lenN old < c) /\
     (short (array_ok ty c) (numbers o ty) old /\ (forall h, at_point s Dec o b ((b, c) :: L) (p ++ old) (lenN p) -> opt s = false -> fails s h EOob) \/
      bad (array_ok ty c) (numbers o ty) old /\ (forall h, at_point s Dec o b ((b, c) :: L) (p ++ old) (lenN p) -> opt s = false -> fails s h EValidation))).
  Proof.
    intros P TY K C WF. assert (WO : wf_bytes old) by (now apply Forall_app in WF). destruct (element_code _ _ _ _ P) as (P1 & _).
    destruct (numbers_decide o ty (N.to_nat c) TY old WO) as [(vs & rest & LV & F & E)|[(vs & rest & LV & F & E & SH)|(vs & v & rest & LV & F & E & ET & V)]].
    - left. exists vs, rest. split; [split; [unfold lenN; lia|exact F]|exact E].
    - right. split; [|left; split].
      + assert (D : byte_type ty \/ ~ byte_type ty) by (unfold byte_type; lia). destruct D as [D|D]; [right|now left].
        assert (W1 : width ty = 1) by (destruct D as [-> | ->]; reflexivity). rewrite E, lenN_app, numbers_len, W1. unfold lenN in LV |- *. rewrite W1 in SH. unfold lenN in SH. lia.
      + assert (WR : wf_bytes rest) by (rewrite E in WO; now apply Forall_app in WO).
        destruct (numbers_fill o ty (N.to_nat c) vs rest TY LV F WR SH) as (more & us & NE & LU & FU & EU). exists more, us. split; [exact NE|]. split; [split; [unfold lenN; lia|exact FU]|].
        rewrite E. exact EU.
      + intros h AT OP. rewrite E in AT, WF. destruct (each_part b ty k o L P TY K vs F c ltac:(unfold lenN; lia) ltac:(lia) s h p rest AT WF) as (n & s' & h' & t & S & AT').
        eapply fails_after; [exact S|]. eapply (scalar_short host lm bc WB); [exact P1|exact TY|exact K|exact AT'|exact (steps_opt host lm bc _ _ _ _ _ _ WB S OP)|]. rewrite !lenN_app. lia.
    - rewrite ET in *. right. split; [left; unfold byte_type; lia|right; split].
      + intros more us r (LU & FU) X. rewrite E, <- app_assoc in X. cbn [app] in X. eapply bool_apart; [exact F|exact FU| |exact V|exact X]. unfold lenN in LU. lia.
      + intros h AT OP. rewrite E in AT, WF. destruct (each_part b 0x1A k o L P TY K vs F c ltac:(unfold lenN; lia) ltac:(lia) s h p (v :: rest) AT WF) as (n & s' & h' & t & S & AT').
        eapply fails_after; [exact S|]. rewrite app_assoc in AT'. eapply bool_bad; eauto.
  Qed.
  Lemma array_datum ty x vs : x <> One -> (datum_ok (Scalar ty x) (Values vs) <-> extent_ok x (lenN vs) /\ Forall (number_ok ty) vs) /\
    forall o, datum_bytes o (Scalar ty x) (Values vs) = extent_bytes o x (lenN vs) ++ numbers o ty vs.
  Proof. intros NX. destruct x; [easy| |]; cbn [datum_ok extent_ok datum_bytes extent_bytes]; (split; [intuition (subst; auto)|reflexivity]). Qed.
  Lemma array_datum_inv ty x d : x <> One -> datum_ok (Scalar ty x) d -> exists vs, d = Values vs.
  Proof. destruct x, d; cbn [datum_ok]; intros NX D; try easy; eauto. Qed.

  Lemma content_reads c k q s h o L p old : content_wf c -> k < 65536 -> (array c -> lenN L < 8) -> match c with Scalar _ x => bounded x | Text _ => False | CountedText _ => True end ->
    placed bc q (code (content_instrs c k)) -> at_point s Dec o q L (p ++ old) (lenN p) -> wf_bytes (p ++ old) -> opt s = false ->
    verdict (datum_ok c) (datum_bytes o c) old s h.
  Proof.
    intros CW K LL BD P AT WF OP. assert (WO : wf_bytes old) by (now apply Forall_app in WF). destruct c as [ty x|mx|w]; [|contradiction|].
    - destruct CW as (TY & XW). destruct (classic_one x) as [-> |NX].
      + cbn [content_instrs] in P.
        destruct (numbers_decide o ty 1 TY old WO) as [(vs & rest & LV & F & E)|[(vs & rest & LV & F & E & SH)|(vs & v & rest & LV & F & E & ET & V)]].
        * left. destruct vs as [|v [|v2 vs]]; try discriminate LV. exists (Value v), rest. split; [exact (Forall_inv F)|]. rewrite E. unfold numbers. cbn [flat_map datum_bytes]. now rewrite app_nil_r.
        * right. left. destruct vs as [|v vs]; [|cbn in LV; lia]. cbn [numbers flat_map app] in E. subst rest. split; [eapply scalar_short; eauto; rewrite lenN_app; lia|].
          destruct (fill_number o ty old TY WO SH) as (v & more & NE & VO & EF). exists more, (Value v). auto.
        * right. right. destruct vs as [|v0 vs]; [|cbn in LV; lia]. cbn [numbers flat_map app] in E. subst ty. split; [subst old; eapply bool_bad; eauto|].
          intros more [u|us|us] r D X; cbn [datum_ok] in D; try contradiction. eapply (bool_apart o [] v (rest ++ more) [u] r); [constructor|constructor; [exact D|constructor]|cbn; lia|exact V|].
          unfold numbers. cbn [flat_map app]. rewrite app_nil_r. rewrite E in X. exact X.
      + assert (EI : content_instrs (Scalar ty x) k = [head x k] ++ [ins ty [k] []; ins 0x38 [] []]) by (destruct x; [easy|reflexivity|reflexivity]).
        rewrite EI, code_app in P. apply placed_app in P as (P1 & P2).
        assert (EW : extent_wf x) by (destruct x; cbn [extent_wf]; auto; unfold counter in XW; cbn [In]; intuition).
        destruct (count_decide o x old NX BD EW WO) as [(c & rest & XO & CE & E)|(w & -> & CW & SH)].
        * destruct (N.eq_dec c 0) as [C0|C0].
          { left. exists (Values []), rest. destruct (array_datum ty x [] NX) as (A & B). rewrite B. change (lenN []) with 0. rewrite C0 in XO, E. split; [apply A; split; [exact XO|constructor]|].
            cbn [numbers flat_map]. rewrite app_nil_r. exact E. }
          set (qb := q + lenN (code [head x k])) in *. rewrite E in AT, WF.
          pose proof (loop_begins q x k c s h o L p rest NX P1 K XO EW (LL ltac:(destruct x; [easy|exact Logic.I|exact Logic.I])) ltac:(lia) OP AT WF) as LB. cbv zeta in LB. fold qb in LB.
          assert (EB : forall y, ip y = qb -> ~ byte_type ty \/ lenN rest < c -> ~ byte_elements bc y \/ lenN rest < c).
          { intros y Y [X|X]; [left|now right]. rewrite (elements_are _ _ _ _ _ P2 Y). exact X. }
          rewrite app_assoc in WF. pose proof (fun s1 => elements_read qb ty k o L c s1 _ rest P2 TY K ltac:(lia) WF) as ER.
          destruct (ER s) as [(vs & r & (LV & F) & EV)|(BT & _)].
          { left. exists (Values vs), r. destruct (array_datum ty x vs NX) as (A & B). rewrite B, LV. split; [apply A; rewrite LV; auto|]. rewrite E, EV, <- app_assoc. reflexivity. }
          destruct (LB ltac:(intros; apply EB; auto)) as (s1 & h1 & t & S1 & AT1 & O1). rewrite app_assoc, <- lenN_app in AT1.
          destruct (ER s1) as [(vs & r & (LV & F) & EV)|(_ & [((more & us & NE & (LU & FU) & EU) & FL)|(BA & FL)])].
          { left. exists (Values vs), r. destruct (array_datum ty x vs NX) as (A & B). rewrite B, LV. split; [apply A; rewrite LV; auto|]. rewrite E, EV, <- app_assoc. reflexivity. }
          -- right. left. split; [eapply fails_after; [exact S1|now apply FL]|]. exists more, (Values us). destruct (array_datum ty x us NX) as (A & B). rewrite B, LU.
             split; [exact NE|]. split; [apply A; rewrite LU; auto|]. rewrite E, <- app_assoc, EU. reflexivity.
          -- right. right. split; [eapply fails_after; [exact S1|now apply FL]|]. intros more d r D X. destruct (array_datum_inv _ _ _ NX D) as (us & ->). destruct (array_datum ty x us NX) as (A & B).
             rewrite B in X. apply A in D as (DX & DF). rewrite E, <- !app_assoc in X. apply extent_apart in X as (EC & X); [|exact XO|exact DX].
             eapply BA; [|exact X]. split; [now symmetry|exact DF].
        * right. left. split; [eapply counter_short; eauto; rewrite lenN_app; lia|].
          destruct (fill_bytes o w old WO SH) as (v & more & NE & VB & EV & _). exists (more ++ numbers o ty (repeat 0 (N.to_nat v))), (Values (repeat 0 (N.to_nat v))).
          destruct (array_datum ty (Counted w) (repeat 0 (N.to_nat v)) NX) as (A & B). rewrite B, lenN_repeat, N2Nat.id. split; [destruct more; [easy|discriminate]|]. split.
          -- apply A. rewrite lenN_repeat, N2Nat.id. split; [|apply numbers_zero]. cbn [extent_ok]. split; [exact VB|]. cbn [bounded] in BD.
             assert (2 ^ (8 * w) <= 65536) by (destruct CW as [-> |[-> | ->]]; vm_compute; try discriminate; lia). lia.
          -- rewrite app_assoc, EV. reflexivity.
    - cbn [content_instrs] in P. cbn [content_wf] in CW.
      assert (DEC : (w <= lenN old /\ w + val_of o (firstn (N.to_nat w) old) <= lenN old) \/ (w <= lenN old -> lenN old < w + val_of o (firstn (N.to_nat w) old))) by lia.
      destruct DEC as [(L1 & L2)|SH].
      + left. set (a := firstn (N.to_nat w) old) in *. set (r := skipn (N.to_nat w) old). assert (E : old = a ++ r) by (symmetry; apply firstn_skipn).
        assert (LA : length a = N.to_nat w) by (unfold a; rewrite firstn_length; unfold lenN in L1; lia).
        assert (WA : wf_bytes a) by (rewrite E in WO; now apply Forall_app in WO). assert (WR : wf_bytes r) by (rewrite E in WO; now apply Forall_app in WO).
        assert (V : val_of o a < 2 ^ (8 * w)).
        { pose proof (val_of_bound o a WA) as V. unfold lenN in V. rewrite LA, N2Nat.id in V. change 256 with (2 ^ 8) in V. now rewrite <- N.pow_mul_r in V. }
        set (l := firstn (N.to_nat (val_of o a)) r). assert (LN : lenN l = val_of o a).
        { assert (LR : lenN r = lenN old - w) by (rewrite E, lenN_app; unfold lenN; rewrite LA; lia). unfold l, lenN. rewrite firstn_length. unfold lenN in LR, L1, L2. lia. }
        exists (Characters l), (skipn (N.to_nat (val_of o a)) r). cbn [datum_ok datum_bytes]. rewrite LN. split; [split; [rewrite <- (firstn_skipn (N.to_nat (val_of o a)) r) in WR; now apply Forall_app in WR|exact V]|].
        rewrite <- LA, bytes_val, <- app_assoc by exact WA. unfold l. rewrite firstn_skipn. exact E.
      + right. left. split; [eapply string_short; eauto|]. destruct (N.ltb_spec (lenN old) w) as [S|G].
        * destruct (fill_bytes o w old WO S) as (v & more & NE & VB & EV & _). exists (more ++ repeat 0 (N.to_nat v)), (Characters (repeat 0 (N.to_nat v))). cbn [datum_ok datum_bytes]. rewrite lenN_repeat, N2Nat.id.
          split; [destruct more; [easy|discriminate]|]. split; [split; [|exact VB]|rewrite app_assoc, EV; reflexivity]. apply Forall_forall. intros u I. apply repeat_spec in I. rewrite I. lia.
        * specialize (SH G). set (a := firstn (N.to_nat w) old) in *. set (r := skipn (N.to_nat w) old). assert (E : old = a ++ r) by (symmetry; apply firstn_skipn).
          assert (LA : length a = N.to_nat w) by (unfold a; rewrite firstn_length; unfold lenN in G; lia).
          assert (WA : wf_bytes a) by (rewrite E in WO; now apply Forall_app in WO). assert (WR : wf_bytes r) by (rewrite E in WO; now apply Forall_app in WO).
          assert (V : val_of o a < 2 ^ (8 * w)).
          { pose proof (val_of_bound o a WA) as V. unfold lenN in V. rewrite LA, N2Nat.id in V. change 256 with (2 ^ 8) in V. now rewrite <- N.pow_mul_r in V. }
          assert (LR : lenN r = lenN old - w) by (rewrite E, lenN_app; unfold lenN; rewrite LA; lia).
          set (m := repeat 0 (N.to_nat (val_of o a - lenN r))). assert (LM : lenN (r ++ m) = val_of o a) by (rewrite lenN_app; unfold m; rewrite lenN_repeat; lia).
          exists m, (Characters (r ++ m)). cbn [datum_ok datum_bytes]. rewrite LM. split; [unfold m; destruct (N.to_nat (val_of o a - lenN r)) eqn:X; [lia|discriminate]|]. split.
          -- split; [|exact V]. apply wf_app; [exact WR|]. apply Forall_forall. intros u I. apply repeat_spec in I. rewrite I. lia.
          -- rewrite <- LA, bytes_val by exact WA. rewrite E at 1. now rewrite <- app_assoc.
  Qed.

  (** ** Members *)
  Lemma verdict_iso {T U} (f : T -> U) (ok : T -> Prop) (ok' : U -> Prop) bytes bytes' old s h :
    (forall d, ok d -> ok' (f d) /\ bytes' (f d) = bytes d) -> (forall u, ok' u -> exists d, ok d /\ u = f d) -> verdict ok bytes old s h -> verdict ok' bytes' old s h.
  Proof.
    intros A B [(d & r & D & E)|[(F & more & d & NE & D & E)|(F & X)]].
    - left. exists (f d), r. destruct (A d D) as (D' & ->). auto.
    - right. left. split; [exact F|]. exists more, (f d). destruct (A d D) as (D' & ->). auto.
    - right. right. split; [exact F|]. intros more u r U'. destruct (B u U') as (d & D & ->). destruct (A d D) as (_ & ->). now apply X.
  Qed.
  Lemma mark_enter q (big : bool) l s h o L bf p : placed bc q (code (marked big l)) -> at_point s Dec o q L bf p -> opt s = false ->
    exists n s1 q1, steps n s h s1 h [] /\ placed bc q1 (code l) /\ at_point s1 Dec (order_in big o) q1 L bf p /\ opt s1 = false.
  Proof.
    intros P R OP. destruct big; cbn [marked order_in] in *; [|exists 0%nat, s, q; split; [constructor|]; auto].
    rewrite !code_app in P. apply placed_app in P as (P1 & P). apply placed_app in P as (P2 & P3). change (lenN (code [ins 2 [] []])) with 1 in *.
    destruct (order_point host lm bc q true s h Dec o L bf p P1 R) as (s1 & S1 & R1). exists 1%nat, s1, (q + 1). split; [exact S1|]. split; [exact P2|]. split; [exact R1|].
    exact (steps_opt host lm bc _ _ _ _ _ _ WB S1 OP).
  Qed.
  Definition reads (a : member) : Prop := forall pre q s o L p old h, member_plain a -> small id names (member_names pre a) -> depth a + lenN L <= 8 -> definite names a ->
    placed bc q (code (member_instrs id pre a)) -> at_point s Dec o q L (p ++ old) (lenN p) -> wf_bytes (p ++ old) -> opt s = false ->
    verdict (tree_ok a) (fun d => fst (member_bytes a d o)) old s h.
  Lemma members_read b : Forall reads b -> forall pre q s o L p old h, every member_plain b -> small id names (flat_map (member_names pre) b) ->
    fold_right N.max 0 (map depth b) + lenN L <= 8 -> every (definite names) b ->
    placed bc q (code (flat_map (member_instrs id pre) b)) -> at_point s Dec o q L (p ++ old) (lenN p) -> wf_bytes (p ++ old) -> opt s = false ->
    verdict (every2 tree_ok b) (fun ds => fst (members_bytes b ds o)) old s h.
  Proof.
    induction 1 as [|a b A F IH]; intros pre q s o L p old h MP SM DL DF P AT WF OP.
    - left. exists [], old. split; [exact Logic.I|reflexivity].
    - cbn [every flat_map map fold_right] in *. destruct MP as (MA & MP), DF as (DA & DF). apply small_app in SM as (SA & SM). rewrite code_app in P. apply placed_app in P as (P1 & P2).
      destruct (A pre q s o L p old h MA SA ltac:(lia) DA P1 AT WF OP) as [(d & rest & D & E)|[(FA & more & d & NE & D & E)|(FA & X)]].
      + rewrite E in AT, WF. destruct (go_member a d pre q s o L p rest h MA SA ltac:(lia) DA D P1 AT WF) as (n & s1 & h1 & t & S & AT1).
        set (bs := fst (member_bytes a d o)) in *. set (o1 := snd (member_bytes a d o)) in *. rewrite <- lenN_app, app_assoc in AT1. rewrite app_assoc in WF.
        destruct (IH pre _ s1 o1 L (p ++ bs) rest h1 MP SM ltac:(lia) DF P2 AT1 WF (steps_opt host lm bc _ _ _ _ _ _ WB S OP)) as [(ds & r & DS & EE)|[(FB & more & ds & NE & DS & EE)|(FB & X)]].
        * left. exists (d :: ds), r. split; [split; auto|]. rewrite members_cons. cbn [fst]. fold bs o1. rewrite E, EE, app_assoc. reflexivity.
        * right. left. split; [eapply fails_after; eauto|]. exists more, (d :: ds). split; [exact NE|]. split; [split; auto|]. rewrite members_cons. cbn [fst]. fold bs o1. rewrite E, <- EE, app_assoc. reflexivity.
        * right. right. split; [eapply fails_after; eauto|]. intros more [|d' ds] r DS EE; [contradiction|]. destruct DS as (D' & DS). rewrite members_cons in EE. cbn [fst] in EE. rewrite E, <- !app_assoc in EE.
          destruct (member_apart a _ _ _ _ _ D D' EE) as (<- & E2). fold o1 in E2. eapply X; eauto.
      + right. left. split; [exact FA|]. exists (more ++ fst (members_bytes b (map zero b) (snd (member_bytes a d o)))), (d :: map zero b).
        split; [destruct more; [easy|discriminate]|]. split; [split; [exact D|eapply zeros_ok; eauto]|]. rewrite members_cons. cbn [fst]. rewrite app_assoc, E. reflexivity.
      + right. right. split; [exact FA|]. intros more [|d ds] r DS EE; [contradiction|]. destruct DS as (D & DS). rewrite members_cons in EE. cbn [fst] in EE. rewrite <- app_assoc in EE. exact (X more d _ D EE).
  Qed.
  (** One structure *)
  Lemma group_read b : Forall reads b -> forall pre n q s o L p old h, every member_plain b -> id (pre ++ n) < names -> small id names (flat_map (member_names (inside pre n)) b) ->
    fold_right N.max 0 (map depth b) + lenN L <= 8 -> every (definite names) b ->
    placed bc q (code (body id pre n b)) -> at_point s Dec o q L (p ++ old) (lenN p) -> wf_bytes (p ++ old) -> opt s = false ->
    (exists g rest m s' h' t, every2 tree_ok b g /\ let bs := fst (members_bytes b g o) in old = bs ++ rest /\ steps m s h s' h' t /\
       at_point s' Dec (snd (members_bytes b g o)) (q + lenN (code (body id pre n b))) L ((p ++ bs) ++ rest) (lenN (p ++ bs))) \/
    (fails s h EOob /\ short (every2 tree_ok b) (fun ds => fst (members_bytes b ds o)) old) \/ (fails s h EValidation /\ bad (every2 tree_ok b) (fun ds => fst (members_bytes b ds o)) old).
  Proof.
    intros F pre n q s o L p old h MP K SM DL DF P AT WF OP. unfold body in P |- *. rewrite !code_app in P |- *. rewrite !lenN_app. apply placed_app in P as (P1 & P). apply placed_app in P as (P2 & P3).
    change (lenN (code [ins 3 [id (pre ++ n)] []])) with 3 in *. change (lenN (code [ins 4 [] []])) with 1 in *.
    destruct (hear h (enter_call (id (pre ++ n)))) as (h1 & r & HH & HR & _). destruct (enter_point host lm bc WB _ _ _ _ _ _ _ _ _ _ _ P1 ltac:(lia) AT HH HR) as (s1 & S1 & AT1).
    destruct (members_read b F _ _ s1 o L p old h1 MP SM DL DF P2 AT1 WF (steps_opt host lm bc _ _ _ _ _ _ WB S1 OP)) as [(g & rest & G & E)|[(FB & X)|(FB & X)]].
    - left. rewrite E in AT1, WF. destruct (go_members b g _ _ s1 o L p rest h1 MP SM DL DF G P2 AT1 WF) as (m & s2 & h2 & t & S2 & AT2). set (bs := fst (members_bytes b g o)) in *.
      destruct (hear h2 leave_call) as (h3 & r' & HH' & HR' & _). destruct (leave_point host lm bc _ _ _ _ _ _ _ _ _ _ P3 AT2 HH' HR') as (s3 & S3 & AT3).
      exists g, rest, (1 + (m + 1))%nat, s3, h3, ([(enter_call (id (pre ++ n)), r)] ++ t ++ [(leave_call, r')]). split; [exact G|]. cbv zeta. fold bs. split; [exact E|]. split.
      + eapply steps_trans; [exact S1|]. eapply steps_trans; [exact S2|exact S3].
      + rewrite lenN_app, <- app_assoc, !N.add_assoc. exact AT3.
    - right. left. split; [eapply fails_after; eauto|exact X].
    - right. right. split; [eapply fails_after; eauto|exact X].
  Qed.
  Definition groups_ok (b : list member) (c : N) (gs : list (list tree)) : Prop := lenN gs = c /\ every (fun g => every2 tree_ok b g) gs.
  Lemma groups_read b : Forall reads b -> forall pre n q L, every member_plain b -> id (pre ++ n) < names -> small id names (flat_map (member_names (inside pre n)) b) ->
    fold_right N.max 0 (map depth b) + (1 + lenN L) <= 8 -> every (definite names) b ->
    placed bc q (code (body id pre n b)) -> placed bc (q + lenN (code (body id pre n b))) (code [ins 0x38 [] []]) ->
    forall c s o p old h, N.of_nat (S c) < eof_mark -> at_point s Dec o q ((q, N.of_nat (S c)) :: L) (p ++ old) (lenN p) -> wf_bytes (p ++ old) -> opt s = false ->
    verdict (groups_ok b (N.of_nat (S c))) (fun gs => fst (groups_bytes b gs o)) old s h.
  Proof.
    intros F pre n q L MP K SM DL DF P PE. induction c as [|c IH]; intros s o p old h CE AT WF OP.
    - destruct (group_read b F pre n q s o ((q, N.of_nat 1) :: L) p old h MP K SM ltac:(rewrite lenN_cons; lia) DF P AT WF OP) as [(g & rest & m & s' & h' & t & G & E & S & AT1)|[(FB & more & d & NE & D & E)|(FB & X)]].
      + left. exists [g], rest. split; [repeat split; auto|]. rewrite groups_cons. cbn [fst]. change (groups_bytes b [] ?o) with (@nil N, o). cbn [fst]. rewrite app_nil_r. exact E.
      + right. left. split; [exact FB|]. exists more, [d]. split; [exact NE|]. split; [repeat split; auto|]. rewrite groups_cons. cbn [fst]. change (groups_bytes b [] ?o) with (@nil N, o). cbn [fst]. rewrite app_nil_r. exact E.
      + right. right. split; [exact FB|]. intros more [|g gs] r (LG & G) E; [discriminate LG|]. rewrite groups_cons in E. cbn [fst] in E. rewrite <- app_assoc in E. exact (X more g _ (proj1 G) E).
    - destruct (group_read b F pre n q s o ((q, N.of_nat (S (S c))) :: L) p old h MP K SM ltac:(rewrite lenN_cons; lia) DF P AT WF OP) as [(g & rest & m & s1 & h1 & t & G & E & S1 & AT1)|[(FB & more & d & NE & D & E)|(FB & X)]].
      + set (bs := fst (members_bytes b g o)) in *. set (o1 := snd (members_bytes b g o)) in *.
        destruct (lap_again host lm bc s1 h1 q _ _ o1 Dec L _ _ PE ltac:(split; [|exact CE]; lia) AT1) as (s2 & S2 & AT2). replace (N.of_nat (S (S c)) - 1) with (N.of_nat (S c)) in AT2 by lia.
        rewrite E, app_assoc in WF. assert (S12 := steps_trans _ _ _ _ _ _ _ _ _ _ _ _ _ S1 S2).
        destruct (IH s2 o1 (p ++ bs) rest h1 ltac:(lia) AT2 WF (steps_opt host lm bc _ _ _ _ _ _ WB S12 OP)) as [(gs & r & (LG & GS) & EE)|[(FB & more & gs & NE & (LG & GS) & EE)|(FB & X)]].
        * left. exists (g :: gs), r. split; [split; [rewrite lenN_cons; lia|split; auto]|]. rewrite groups_cons. cbn [fst]. fold bs o1. rewrite E, EE, app_assoc. reflexivity.
        * right. left. split; [eapply fails_after; eauto|]. exists more, (g :: gs). split; [exact NE|]. split; [split; [rewrite lenN_cons; lia|split; auto]|]. rewrite groups_cons. cbn [fst]. fold bs o1. rewrite E, <- EE, app_assoc. reflexivity.
        * right. right. split; [eapply fails_after; eauto|]. intros more [|g' gs] r (LG & GS) EE; [discriminate LG|]. destruct GS as (G' & GS). rewrite groups_cons in EE. cbn [fst] in EE. rewrite E, <- !app_assoc in EE.
          destruct (members_apart b _ _ _ _ _ G G' EE) as (<- & E2). fold o1 in E2. rewrite lenN_cons in LG. eapply (X more gs r); [split; [lia|exact GS]|exact E2].
      + right. left. split; [exact FB|]. set (o1 := snd (members_bytes b d o)). set (gs := repeat (map zero b) (S c)).
        assert (GS : every (fun g => every2 tree_ok b g) gs) by (apply every_repeat; eapply zeros_ok; eauto).
        exists (more ++ fst (groups_bytes b gs o1)), (d :: gs). split; [destruct more; [easy|discriminate]|]. split; [split; [rewrite lenN_cons; unfold gs; rewrite lenN_repeat; lia|split; auto]|].
        rewrite groups_cons. cbn [fst]. fold o1. rewrite app_assoc, E. reflexivity.
      + right. right. split; [exact FB|]. intros more [|g gs] r (LG & G) E; [discriminate LG|]. rewrite groups_cons in E. cbn [fst] in E. rewrite <- app_assoc in E. exact (X more g _ (proj1 G) E).
  Qed.

  Lemma member_reads a : reads a.
  Proof.
    induction a as [f|os x n b IH] using member_induction; intros pre q s o L p old h MP SM DL DF P AT WF OP.
    - cbn [member_plain member_names depth definite member_instrs] in *. apply small_cons in SM as (K & _).
      destruct (mark_enter _ _ _ _ h _ _ _ _ P AT OP) as (m & s1 & q1 & S1 & P1 & AT1 & O1). eapply verdict_later; [exact S1|].
      eapply (verdict_iso Datum (datum_ok (f_content f)) _ (datum_bytes (order_in (f_big f) o) (f_content f))).
      + intros d D. split; [exact D|]. rewrite flat_bytes. reflexivity.
      + intros [d|gs] U; [exists d; auto|contradiction].
      + eapply content_reads; eauto; [lia| |].
        * intros A. destruct (f_content f) as [ty [|c|w]|c|w]; cbn [array extent_depth] in *; try easy; lia.
        * destruct (f_content f); auto. apply DF.
    - cbn [member_plain member_names depth definite member_instrs] in *. destruct MP as (XW & MP), DF as (BD & EM & DF).
      change ([ins 3 [id (pre ++ n)] []] ++ flat_map (member_instrs id (inside pre n)) b ++ [ins 4 [] []]) with (body id pre n b) in *.
      apply small_cons in SM as (K & SM).
      destruct (mark_enter _ _ _ _ h _ _ _ _ P AT OP) as (m & s1 & q1 & S1 & P1 & AT1 & O1). eapply verdict_later; [exact S1|]. set (o1 := order_in (last os false) o) in *.
      clear S1 P AT OP s q. rename s1 into s, q1 into q, P1 into P, AT1 into AT, O1 into OP.
      apply (verdict_iso Groups (fun gs => extent_ok x (lenN gs) /\ every (fun g => every2 tree_ok b g) gs) _ (fun gs => extent_bytes o1 x (lenN gs) ++ fst (groups_bytes b gs o1))).
      + intros gs G. split; [exact G|]. rewrite nest_bytes. reflexivity.
      + intros [d|gs] U; [contradiction|exists gs; auto].
      + destruct (classic_one x) as [-> |NX].
        * cbn [repeated extent_depth extent_ok extent_bytes app] in *.
          destruct (group_read b IH pre n q s o1 L p old h MP K SM ltac:(lia) DF P AT WF OP) as [(g & rest & m' & s' & h' & t & G & E & S & AT1)|[(FB & more & d & NE & D & E)|(FB & X)]].
          -- left. exists [g], rest. split; [repeat split; auto|]. rewrite groups_cons. cbn [fst]. change (groups_bytes b [] ?o) with (@nil N, o). cbn [fst]. rewrite app_nil_r. exact E.
          -- right. left. split; [exact FB|]. exists more, [d]. split; [exact NE|]. split; [repeat split; auto|]. rewrite groups_cons. cbn [fst]. change (groups_bytes b [] ?o) with (@nil N, o). cbn [fst]. rewrite app_nil_r. exact E.
          -- right. right. split; [exact FB|]. intros more [|g gs] r (LG & G) E; [discriminate LG|]. rewrite groups_cons in E. cbn [fst] in E. rewrite <- app_assoc in E. exact (X more g _ (proj1 G) E).
        * assert (WO : wf_bytes old) by (now apply Forall_app in WF). assert (ED : extent_depth x = 1) by (destruct x; easy). rewrite ED in DL.
          rewrite (repeated_eq x (id (pre ++ n)) _ NX), !code_app in P. apply placed_app in P as (P1 & P). apply placed_app in P as (P2 & P3).
          destruct (count_decide o1 x old NX BD XW WO) as [(c & rest & XO & CE & E)|(w & EX & CW & SH)].
          -- destruct (N.eq_dec c 0) as [C0|C0].
             { left. exists [], rest. change (lenN []) with 0. change (groups_bytes b [] o1) with (@nil N, o1). cbn [fst]. rewrite app_nil_r. rewrite C0 in XO, E. repeat split; auto. }
             set (qb := q + lenN (code [head x (id (pre ++ n))])) in *. rewrite E in AT, WF.
             assert (NB : forall y, ip y = qb -> ~ byte_elements bc y \/ lenN rest < c).
             { intros y Y. left. unfold byte_elements. rewrite Y. pose proof P2 as P2'. unfold body in P2'. rewrite code_app in P2'. apply placed_app in P2' as (P2' & _).
               cbn [code flat_map instr_bytes opcode refs args ins app] in P2'. apply placed_one in P2' as (A3 & _). rewrite A3. lia. }
             destruct (loop_begins q x _ c s h o1 L p rest NX P1 ltac:(lia) XO XW ltac:(lia) ltac:(lia) OP AT WF NB) as (s1 & h1 & t & S1 & AT1 & OP1). fold qb in AT1. rewrite app_assoc, <- lenN_app in AT1. rewrite app_assoc in WF.
             eapply verdict_later; [exact S1|].
             assert (EC : N.of_nat (S (N.to_nat (c - 1))) = c) by lia.
             pose proof (groups_read b IH pre n qb L MP K SM ltac:(lia) DF P2 P3 (N.to_nat (c - 1)) s1 o1 (p ++ extent_bytes o1 x c) rest h1) as V. rewrite EC in V. specialize (V CE AT1 WF OP1).
             destruct V as [(gs & r & (LG & GS) & EE)|[(FB & more & gs & NE & (LG & GS) & EE)|(FB & X)]].
             ++ left. exists gs, r. rewrite LG. split; [auto|]. rewrite E, EE, app_assoc. reflexivity.
             ++ right. left. split; [exact FB|]. exists more, gs. rewrite LG. split; [exact NE|]. split; [auto|]. rewrite E, <- EE, app_assoc. reflexivity.
             ++ right. right. split; [exact FB|]. intros more gs r (GX & GS) EE. rewrite E, <- !app_assoc in EE. apply extent_apart in EE as (EC' & EE); [|exact XO|exact GX].
                eapply (X more gs r); [split; [now symmetry|exact GS]|exact EE].
          -- subst x. right. left. split; [eapply counter_short; eauto; [lia|rewrite lenN_app; lia]|].
             destruct (fill_bytes o1 w old WO SH) as (v & more & NE & VB & EV & _). set (gs := repeat (map zero b) (N.to_nat v)). assert (LG : lenN gs = v) by (unfold gs; rewrite lenN_repeat; lia).
             exists (more ++ fst (groups_bytes b gs o1)), gs. rewrite LG. split; [destruct more; [easy|discriminate]|]. split.
             ++ split; [|apply every_repeat; eapply zeros_ok; eauto]. cbn [extent_ok bounded] in *. split; [exact VB|].
                assert (2 ^ (8 * w) <= 65536) by (destruct CW as [-> |[-> | ->]]; vm_compute; try discriminate; lia). lia.
             ++ cbn [extent_bytes]. rewrite app_assoc, EV. reflexivity.
  Qed.
End Reads.

Section Whole.
  Context {H : Type} (host : H -> request -> H * reply) (lm : libm) (id : list N -> N) (k : schema) (names : N).
  Hypothesis LI : listens host.
  Hypothesis MP : every member_plain (sc_members k).
  Hypothesis SM : small id names (schema_names k).
  Hypothesis NM : names <= 65536.
  Hypothesis DP : fold_right N.max 0 (map depth (sc_members k)) <= 8.
  Hypothesis DF : every (definite names) (sc_members k).
  Let bc := code (schema_instrs id k).
  Lemma message_fits ts rest : fits Dec (message k ts) (message k ts ++ rest).
  Proof. apply fits_dec. Qed.
  Lemma whole_reads data h : wf_bytes data ->
    (exists ts rest z s' h' t n, every2 tree_ok (sc_members k) ts /\ data = message k ts ++ rest /\ said_members Dec id [] 0 data (sc_members k) ts z t /\ plays host h t h' /\
       (forall fuel, (n <= fuel)%nat -> run host lm bc fuel (init Dec data) h = (Done EOk s', h', t)) /\ position s' = 8 * lenN (message k ts)) \/
    (fails host lm bc (init Dec data) h EOob /\ incomplete k data) \/ (fails host lm bc (init Dec data) h EValidation /\ malformed k data).
  Proof.
    intros WD. pose proof (whole_wf id k MP) as WB. fold bc in WB.
    assert (P : placed bc 0 bc) by (apply placed_split; exists [], []; now rewrite app_nil_r). unfold bc in P at 2. unfold schema_instrs in P.
    change (ins 7 [id (sc_name k)] [] :: ?l) with ([ins 7 [id (sc_name k)] []] ++ l) in P. rewrite !code_app in P.
    apply placed_app in P as (P1 & P). apply placed_app in P as (P2 & P3). rewrite (marks_len k names NM DP) in P2, P3. change (lenN (code [ins 7 [id (sc_name k)] []])) with 3 in P3.
    destruct (order_marks host lm id k names NM DP (sc_orders k) 0 (init Dec data) h Dec LE [] data 0 P1 ltac:(repeat split)) as (n & s1 & S1 & R1).
    destruct (name_mark host lm id k names MP NM DP _ _ s1 h Dec _ [] data 0 P2 R1) as (s2 & S2 & R2). rewrite order_sum in R2. fold (schema_order k) in R2.
    assert (S12 := steps_trans _ _ _ _ _ _ _ _ _ _ _ _ _ S1 S2).
    assert (V : verdict host lm bc (every2 tree_ok (sc_members k)) (fun ds => fst (members_bytes (sc_members k) ds (schema_order k))) data s2 h).
    { eapply (members_read host lm bc WB LI id names NM (sc_members k)) with (L := []) (p := []); eauto.
      - apply Forall_forall. intros a _. now apply member_reads.
      - intros x I. apply SM. apply in_or_app. now left.
      - change (lenN (@nil (N * N))) with 0. rewrite N.add_0_r. exact DP.
      - exact (steps_opt host lm bc _ _ _ _ _ _ WB S12 eq_refl). }
    destruct V as [(ts & rest & TO & E)|[(F & X)|(F & X)]].
    - left. destruct (hear_members host LI id (sc_members k) ts TO h [] 0 data) as (z & t & h' & SD & PL).
      destruct (whole_run host lm id k names MP SM NM DP Dec data ts z t h h' SD TO (members_skip _ _ _ DF TO) WD) as (s' & m & R & B & PO); auto.
      { rewrite E. apply message_fits. }
      exists ts, rest, z, s', h', t, m. repeat split; auto.
    - right. left. split; [eapply fails_after; eauto|exact X].
    - right. right. split; [eapply fails_after; eauto|exact X].
  Qed.
End Whole.
