(** Running compiled packets with structures as fields. *)
From Coq Require Import ZifyBool ZifyNat ZifyN.
From Verif Require Import Base SpecBytes LemBase ModelWord LemWord ModelFloat ModelTrans ModelVM SpecVM LemAct LemInstr LemField LemCheck LemStr LemArr
  SpecParse SpecNames SpecPacket SpecFlow SpecMessage LemFlow LemImage LemSend LemMessage SpecNest LemNest.
Ltac Zify.zify_post_hook ::= Z.div_mod_to_equations.

(** ** Skipping *)
Lemma bal_app a b : balanced a -> balanced b -> balanced (a ++ b).
Proof.
  intros A B. induction A as [|c l O E A IH|c l1 l2 O A1 IH1 A2 IH2]; [exact B|cbn [app]; now constructor|].
  cbn [app]. rewrite <- app_assoc. cbn [app]. now constructor.
Qed.
Lemma quiet_bal l : quiet l -> balanced l.
Proof.
  induction 1 as [|c l N F IH]; [constructor|]. cbn [In] in N. constructor; [unfold opens; cbn [In]|..]; [|lia|exact IH]. intros X. apply N. intuition.
Qed.
Lemma quiet_app a b : quiet a -> quiet b -> quiet (a ++ b).
Proof. intros A B. apply Forall_app. split; auto. Qed.
Lemma quiet_small l : Forall (fun b => b < 52) l -> quiet l.
Proof. intros F. eapply Forall_impl; [|exact F]. cbv beta. cbn [In]. lia. Qed.
Lemma key_small k : k < 52 -> Forall (fun b => b < 52) (le_bytes 2 k).
Proof. intros K. cbn [le_bytes]. repeat constructor; lia. Qed.
Lemma instr_quiet op k a : op < 52 -> k < 52 -> quiet a -> quiet (instr_bytes (ins op [k] a)).
Proof.
  intros O K A. unfold instr_bytes, ins. cbn [opcode refs args flat_map]. rewrite app_nil_r. apply (quiet_app (op :: le_bytes 2 k)); [|exact A].
  apply quiet_small. constructor; [exact O|now apply key_small].
Qed.
Lemma code_bal_one i : quiet (instr_bytes i) -> balanced (code [i]).
Proof. intros Q. unfold code. cbn [flat_map]. rewrite app_nil_r. now apply quiet_bal. Qed.
Lemma loop_bal op k a l : opens op -> k < 52 -> quiet a -> balanced (code l) -> balanced (code ([ins op [k] a] ++ l ++ [ins 0x38 [] []])).
Proof.
  intros O K A B. rewrite !code_app. change (code [ins 0x38 [] []]) with [0x38]. unfold code at 1. cbn [flat_map]. unfold instr_bytes, ins. cbn [opcode refs args flat_map].
  rewrite !app_nil_r. cbn [app]. rewrite !app_assoc. change (op :: ((le_bytes 2 k ++ a) ++ code l) ++ 0x38 :: []) with (op :: (((le_bytes 2 k ++ a) ++ code l) ++ 0x38 :: [])).
  apply bal_nest; [exact O| |constructor]. apply bal_app; [|exact B]. apply quiet_bal. apply quiet_app; [|exact A]. apply quiet_small. now apply key_small.
Qed.
Lemma array_opens w : opens (array_op w).
Proof. unfold array_op, opens. cbn [In]. destruct w as [|[[]|[]|]]; lia. Qed.
Lemma string_small w : string_op w < 52.
Proof. unfold string_op. destruct w as [|[[]|[]|]]; lia. Qed.
Lemma repeated_bal x k l : quiet_extent x -> k < 52 -> balanced (code l) -> balanced (code (repeated x k l)).
Proof.
  intros Q K B. destruct x; cbn [repeated quiet_extent] in *; auto; apply loop_bal; auto using array_opens; [unfold opens; cbn [In]; lia|constructor].
Qed.
Lemma marked_bal big l : balanced (code l) -> balanced (code (marked big l)).
Proof.
  intros B. destruct big; [|exact B]. cbn [marked]. rewrite !code_app. apply bal_app; [|apply bal_app; [exact B|]]; apply quiet_bal; change (quiet [2]) || change (quiet [1]); apply quiet_small; repeat constructor; lia.
Qed.
Definition content_quiet (c : content) : Prop :=
  match c with Scalar _ x => quiet_extent x | Text max => quiet (bytes_of LE 2 max) | CountedText _ => True end.
Lemma content_bal c k : content_wf c -> content_quiet c -> k < 52 -> balanced (code (content_instrs c k)).
Proof.
  intros W Q K. destruct c as [ty x|m|w]; cbn [content_quiet] in Q.
  - assert (TY : 0x10 <= ty <= 0x1A) by (destruct x; cbn [content_wf] in W; tauto).
    replace (content_instrs (Scalar ty x) k) with (repeated x k [ins ty [k] []]) by (destruct x; reflexivity).
    apply repeated_bal; auto. apply code_bal_one. apply instr_quiet; [lia|exact K|constructor].
  - apply code_bal_one. apply instr_quiet; [lia|exact K|exact Q].
  - apply code_bal_one. apply instr_quiet; [apply string_small|exact K|constructor].
Qed.
(** Plain contents and widths *)
Fixpoint member_plain (m : member) : Prop :=
  match m with
  | Flat f => content_wf (f_content f)
  | Nest _ x _ b => extent_wf x /\ every member_plain b
  end.
Definition small (id : list N -> N) (z : N) (ns : list (list N)) : Prop := forall n, In n ns -> id n < z.
Lemma small_app id z a b : small id z (a ++ b) <-> small id z a /\ small id z b.
Proof. unfold small. setoid_rewrite in_app_iff. firstorder. Qed.
Lemma small_cons id z n b : small id z (n :: b) <-> id n < z /\ small id z b.
Proof. unfold small. cbn [In]. split; [intros X; split; auto|intros (X & Y) m [<-|I]; auto]. Qed.
Definition body (id : list N -> N) (pre n : list N) (b : list member) : list instr :=
  [ins 0x03 [id (pre ++ n)] []] ++ flat_map (member_instrs id (inside pre n)) b ++ [ins 0x04 [] []].
Lemma body_bal id pre n b : id (pre ++ n) < 52 -> balanced (code (flat_map (member_instrs id (inside pre n)) b)) -> balanced (code (body id pre n b)).
Proof.
  intros K B. unfold body. rewrite !code_app. apply bal_app; [|apply bal_app; [exact B|]].
  - apply code_bal_one. apply instr_quiet; [lia|exact K|constructor].
  - apply quiet_bal. change (quiet [4]). apply quiet_small. repeat constructor; lia.
Qed.
Lemma member_bal id m : forall pre, member_plain m -> quiet_member m -> small id 52 (member_names pre m) -> balanced (code (member_instrs id pre m)).
Proof.
  induction m as [f|os x n b IH] using member_induction; intros pre W Q I; cbn [member_instrs member_plain quiet_member member_names] in *; apply small_cons in I as (K & I); apply marked_bal.
  - apply content_bal; auto.
  - destruct W as (WX & W), Q as (QX & Q). apply repeated_bal; auto. apply (body_bal id pre n b K). apply every_forall in W. apply every_forall in Q.
    clear - W Q IH I. induction b as [|a b IB]; [constructor|]. cbn [flat_map] in *. apply small_app in I as (I1 & I2). inversion IH; inversion W; inversion Q; subst. rewrite code_app. apply bal_app; auto.
Qed.
Lemma members_bal id pre b : every member_plain b -> every quiet_member b -> small id 52 (flat_map (member_names pre) b) -> balanced (code (flat_map (member_instrs id pre) b)).
Proof.
  intros W Q. apply every_forall in W. apply every_forall in Q. revert Q. induction W as [|a b WA W IH]; intros Q I; [constructor|]. cbn [flat_map] in *. apply small_app in I as (I1 & I2).
  inversion Q; subst. rewrite code_app. apply bal_app; auto using member_bal.
Qed.

(** ** Sizes *)
Scheme said_mut := Induction for said Sort Prop
with said_groups_mut := Induction for said_groups Sort Prop
with said_members_mut := Induction for said_members Sort Prop.
Combined Scheme said_ind3 from said_mut, said_groups_mut, said_members_mut.

Lemma members_cons a d b ds o : members_bytes (a :: b) (d :: ds) o =
  (fst (member_bytes a d o) ++ fst (members_bytes b ds (snd (member_bytes a d o))), snd (members_bytes b ds (snd (member_bytes a d o)))).
Proof. unfold members_bytes. cbn [chain2]. destruct (member_bytes a d o) as (x, o1). cbn [fst snd]. now destruct (chain2 member_bytes b ds o1). Qed.
Lemma groups_cons b g gs o : groups_bytes b (g :: gs) o =
  (fst (members_bytes b g o) ++ fst (groups_bytes b gs (snd (members_bytes b g o))), snd (groups_bytes b gs (snd (members_bytes b g o)))).
Proof. unfold groups_bytes. cbn [chain]. destruct (members_bytes b g o) as (x, o1). cbn [fst snd]. now destruct (chain (members_bytes b) gs o1). Qed.
Definition order_in (big : bool) (o : endian) : endian := if big then BE else o.
Definition order_out (big : bool) (o : endian) : endian := if big then LE else o.
Lemma nest_bytes os x n b gs o : let o1 := order_in (last os false) o in
  member_bytes (Nest os x n b) (Groups gs) o = (extent_bytes o1 x (lenN gs) ++ fst (groups_bytes b gs o1), order_out (last os false) (snd (groups_bytes b gs o1))).
Proof.
  intros o1. cbn [member_bytes]. fold (order_in (last os false) o). fold o1. unfold groups_bytes.
  change (chain (fun g => chain2 member_bytes b g) gs o1) with (chain (members_bytes b) gs o1). now destruct (chain (members_bytes b) gs o1).
Qed.
Lemma flat_bytes f d o : member_bytes (Flat f) (Datum d) o = (datum_bytes (order_in (f_big f) o) (f_content f) d, order_out (f_big f) o).
Proof. cbn [member_bytes]. now destruct (f_big f). Qed.
Lemma extent_len o x c : lenN (extent_bytes o x c) = extent_size x.
Proof. destruct x; cbn [extent_bytes extent_size]; rewrite ?lenN_bytes_of; lia || reflexivity. Qed.
Lemma said_sizes m id :
  (forall pre pos old a d z t, said m id pre pos old a d z t -> forall o, lenN (fst (member_bytes a d o)) = z) /\
  (forall pre pos old n b gs z t, said_groups m id pre pos old n b gs z t -> forall o, lenN (fst (groups_bytes b gs o)) = z) /\
  (forall pre pos old b ds z t, said_members m id pre pos old b ds z t -> forall o, lenN (fst (members_bytes b ds o)) = z).
Proof.
  apply said_ind3; intros.
  - rewrite flat_bytes. apply datum_len.
  - rewrite nest_bytes. cbn [fst]. rewrite lenN_app, extent_len. now f_equal.
  - reflexivity.
  - rewrite groups_cons. cbn [fst]. rewrite lenN_app. now f_equal.
  - reflexivity.
  - rewrite members_cons. cbn [fst]. rewrite lenN_app. now f_equal.
Qed.

(** ** Room for bytes: when decoding, they are there already *)
Definition fits (m : mode) (bs old : list N) : Prop := lenN bs <= lenN old /\ (m = Dec -> after bs old = old).
Lemma skipn_front (a b : list N) : skipn (N.to_nat (lenN a)) (a ++ b) = b.
Proof. unfold lenN. rewrite Nat2N.id, skipn_app, skipn_all, Nat.sub_diag. reflexivity. Qed.
Lemma fits_app m a b old : fits m (a ++ b) old -> fits m a old /\ fits m b (skipn (N.to_nat (lenN a)) old).
Proof.
  intros (L & D). rewrite lenN_app in L. repeat split.
  - lia.
  - intros E. specialize (D E). rewrite <- after_two in D. rewrite <- D at 2. unfold after at 1. f_equal. rewrite <- D at 1. apply skipn_front.
  - rewrite lenN_skipn. lia.
  - intros E. specialize (D E). rewrite <- after_two in D. rewrite <- D at 2. symmetry. apply skipn_front.
Qed.
Lemma after_nil old : after [] old = old.
Proof. reflexivity. Qed.
Lemma after_front bs old : after bs old = bs ++ skipn (N.to_nat (lenN bs)) old.
Proof. reflexivity. Qed.
Lemma wf_after p bs old : wf_bytes (p ++ old) -> wf_bytes bs -> wf_bytes ((p ++ bs) ++ skipn (N.to_nat (lenN bs)) old).
Proof.
  intros W B. unfold wf_bytes in *. apply Forall_app in W as (W1 & W2). apply Forall_app. split; [apply Forall_app; split; auto|].
  rewrite <- (firstn_skipn (N.to_nat (lenN bs)) old) in W2. apply Forall_app in W2. apply W2.
Qed.
Lemma chain2_wf b : Forall (fun a => forall d o, tree_ok a d -> wf_bytes (fst (member_bytes a d o))) b ->
  forall ds o, every2 tree_ok b ds -> wf_bytes (fst (members_bytes b ds o)).
Proof.
  induction 1 as [|a b W F IH]; intros [|d ds] o E; cbn [every2] in E; try easy; [constructor|]. destruct E as (E1 & E2). rewrite members_cons. cbn [fst]. apply wf_app; auto.
Qed.
Lemma tree_wf a : forall d o, tree_ok a d -> wf_bytes (fst (member_bytes a d o)).
Proof.
  induction a as [f|os x n b IH] using member_induction; intros [d|gs] o K; cbn [tree_ok] in K; try easy.
  - rewrite flat_bytes. now apply datum_wf.
  - rewrite nest_bytes. cbn [fst]. destruct K as (_ & K). apply wf_app.
    + destruct x; cbn [extent_bytes]; try constructor. apply wf_bytes_of.
    + generalize (order_in (last os false) o). clear o. induction gs as [|g gs IG]; intros o; [constructor|]. cbn [every] in K. destruct K as (K1 & K2). rewrite groups_cons. cbn [fst].
      apply wf_app; [|auto]. now apply chain2_wf.
Qed.
Lemma members_ok_wf b ds o : every2 tree_ok b ds -> wf_bytes (fst (members_bytes b ds o)).
Proof. apply chain2_wf. apply Forall_forall. intros a _. apply tree_wf. Qed.

Lemma classic_one (x : extent) : x = One \/ x <> One.
Proof. destruct x; [now left|right; discriminate|right; discriminate]. Qed.
Lemma plays_join {H} (host : H -> request -> H * reply) t1 t2 h h1 h' : plays host h t1 h1 -> plays host h1 t2 h' -> plays host h (t1 ++ t2) h'.
Proof. intros A. induction A; intros B; [exact B|]. cbn [app]. econstructor; eauto. Qed.
Lemma plays_cons {H} (host : H -> request -> H * reply) rq r t h h' : plays host h ((rq, r) :: t) h' -> exists h1, host h rq = (h1, r) /\ plays host h1 t h'.
Proof. intros P. inversion P; subst. eauto. Qed.
Definition head (x : extent) (k : N) : instr := match x with Fixed n => ins 0x34 [k] (bytes_of LE 4 n) | Counted w => ins (array_op w) [k] [] | One => ins 0 [] [] end.
Lemma repeated_eq x k l : x <> One -> repeated x k l = [head x k] ++ l ++ [ins 0x38 [] []].
Proof. destruct x; [easy|reflexivity|reflexivity]. Qed.

Section Run.
  Context {H : Type} (host : H -> request -> H * reply) (lm : libm) (bc : list N) (WB : wf_bytes bc).
  Notation steps := (steps host lm bc).

  Lemma content_talk m c k q s h o L p old d t h' : placed bc q (code (content_instrs c k)) -> content_wf c -> k < 65536 -> (d = Values [] -> k < 52) ->
    (array c -> lenN L < 8) -> at_point s m o q L (p ++ old) (lenN p) -> wf_bytes (p ++ old) -> datum_ok c d -> fits m (datum_bytes o c d) old ->
    says m k (lenN p) old c d t -> plays host h t h' ->
    exists n s', steps n s h s' h' t /\ at_point s' m o (q + lenN (code (content_instrs c k))) L (p ++ after (datum_bytes o c d) old) (lenN p + lenN (datum_bytes o c d)).
  Proof.
    intros P CW K K0 LL AT WF DO (F1 & F2) S PL. assert (WS : wf_bytes (buf s)) by (destruct AT as (_ & _ & -> & _); exact WF). destruct m; cbn [says] in S.
    - eapply content_enc; eauto.
    - specialize (F2 eq_refl). rewrite F2. rewrite <- F2, after_front in AT |- *. eapply content_dec; eauto.
  Qed.

  Lemma enter_point q k s h m o L bf p h1 r : placed bc q (code [ins 0x03 [k] []]) -> k < 65536 -> at_point s m o q L bf p -> host h (enter_call k) = (h1, r) -> r_ok r = true ->
    exists s', steps 1 s h s' h1 [(enter_call k, r)] /\ at_point s' m o (q + 3) L bf p.
  Proof.
    intros P K AT HH HR. destruct AT as ((R1 & R2 & R3 & R4 & R5) & A1 & A2 & A3).
    cbn [code flat_map instr_bytes opcode refs args ins app] in P. destruct (placed_key bc q _ k _ P K s R5) as (HO & HK & HI).
    exists (set_ip s (ip s + 3)). split.
    - apply steps_one; [lia|lia|]. enter_op HO. enter_args. rewrite key_eq by (auto; lia). cbn [lift]. rewrite HK. erewrite interp_call; [|exact HH|exact HR]. reflexivity.
    - unfold at_point, ready. cbn [md tr boff en ip loops buf cur set_ip]. rewrite R5. repeat split; auto.
  Qed.
  Lemma leave_point q s h m o L bf p h1 r : placed bc q (code [ins 0x04 [] []]) -> at_point s m o q L bf p -> host h leave_call = (h1, r) -> r_ok r = true ->
    exists s', steps 1 s h s' h1 [(leave_call, r)] /\ at_point s' m o (q + 1) L bf p.
  Proof.
    intros P AT HH HR. destruct AT as ((R1 & R2 & R3 & R4 & R5) & A1 & A2 & A3). pose proof (placed_le _ _ _ P) as QL. change (lenN (code [ins 4 [] []])) with 1 in QL.
    change (code [ins 4 [] []]) with [0x04] in P. apply placed_one in P as (HO & _). rewrite <- R5 in HO. change (opcode_at bc s = 0x04) in HO.
    exists (set_ip s (ip s + 1)). split.
    - apply steps_one; [lia|lia|]. enter_op HO. enter_args. erewrite interp_call; [|exact HH|exact HR]. reflexivity.
    - unfold at_point, ready. cbn [md tr boff en ip loops buf cur set_ip]. rewrite R5. repeat split; auto.
  Qed.
  Lemma lap_again s h b e (left : N) o m L bf p : placed bc e (code [ins 0x38 [] []]) -> 1 < left < eof_mark ->
    at_point s m o e ((b, left) :: L) bf p ->
    exists s', steps 1 s h s' h [] /\ at_point s' m o b ((b, left - 1) :: L) bf p.
  Proof.
    intros P B AT. destruct (at_point_byte _ _ _ _ _ _ _ AT) as (BP & B8). destruct AT as ((R1 & R2 & R3 & R4 & R5) & A1 & A2 & A3).
    pose proof (placed_le _ _ _ P) as LE. change (lenN (code [ins 0x38 [] []])) with 1 in LE.
    change (code [ins 56 [] []]) with [0x38] in P. apply placed_one in P as (HO & _). rewrite <- R5 in HO.
    eexists. split; [apply steps_one; [lia|unfold opcode_at; lia|]; eapply end_again; eauto; lia|].
    unfold back, aligned, at_point, ready. cbn [md tr boff en ip loops buf cur set_ip set_loops set_boff set_cur]. rewrite ?BP. repeat split; auto.
  Qed.
  Lemma lap_last s h b e o m L bf p h1 r : placed bc e (code [ins 0x38 [] []]) ->
    at_point s m o e ((b, 1) :: L) bf p -> host h end_call = (h1, r) -> r_ok r = true ->
    exists s', steps 1 s h s' h1 [(end_call, r)] /\ at_point s' m o (e + 1) L bf p.
  Proof.
    intros P AT HH HR. destruct (at_point_byte _ _ _ _ _ _ _ AT) as (BP & B8). destruct AT as ((R1 & R2 & R3 & R4 & R5) & A1 & A2 & A3).
    pose proof (placed_le _ _ _ P) as LE. change (lenN (code [ins 0x38 [] []])) with 1 in LE.
    change (code [ins 56 [] []]) with [0x38] in P. apply placed_one in P as (HO & _). rewrite <- R5 in HO.
    eexists. split; [apply steps_one; [lia|unfold opcode_at; lia|]; eapply end_last; eauto; lia|].
    unfold aligned, at_point, ready. cbn [md tr boff en ip loops buf cur set_ip set_loops set_boff set_cur]. rewrite BP, R5. repeat split; auto.
  Qed.

  (** The start of an array *)
  Lemma array_head q x k c s h h1 t m o L p old : x <> One -> placed bc q (code [head x k]) -> k < 65536 -> extent_ok x c -> extent_wf x -> counts m k x c t -> plays host h t h1 ->
    at_point s m o q L (p ++ old) (lenN p) -> fits m (extent_bytes o x c) old ->
    exists y, array_starts host bc s h c y h1 t /\ ip s < lenN bc /\
      at_point y m o (q + lenN (code [head x k])) L (p ++ after (extent_bytes o x c) old) (lenN p + extent_size x).
  Proof.
    intros NX P K XO XW C PL AT (F1 & F2). destruct (at_point_byte _ _ _ _ _ _ _ AT) as (BP & B8). destruct AT as ((R1 & R2 & R3 & R4 & R5) & A1 & A2 & A3).
    pose proof (placed_le _ _ _ P) as QL. destruct x as [|n|w]; [easy| |]; cbn [head extent_ok extent_wf counts extent_bytes extent_size] in *.
    - destruct XO as (-> & NB). destruct C as (r & HR & AN & ->). apply plays_one in PL. change (lenN (code [ins 52 [k] (bytes_of LE 4 n)])) with 7 in *.
      unfold code, instr_bytes, ins in P. cbn [opcode refs args flat_map] in P. rewrite !app_nil_r in P. destruct (placed_key bc q _ k _ P K s R5) as (HO & HK & _).
      assert (OE : operand_at bc s 3 4 = n).
      { apply placed_one in P as (_ & P). apply placed_app in P as (_ & P). change (lenN (le_bytes 2 k)) with 2 in P. unfold operand_at. rewrite R5.
        replace (q + 3) with (q + 1 + 2) by lia. apply placed_val4; auto. lia. }
      exists (aligned s 7). split; [|split; [lia|]].
      + pose proof (starts_fixed host bc s h h1 r HO ltac:(lia)) as X. cbv zeta in X. rewrite HK, OE in X. specialize (X PL HR). rewrite AN in X. exact X.
      + rewrite after_nil, N.add_0_r. unfold aligned, at_point, ready. cbn [md tr boff en ip loops buf cur set_ip set_boff set_cur]. rewrite BP, R5. repeat split; auto.
    - destruct XO as (CB & CE). destruct C as (r & HR & AN & ->). apply plays_one in PL. change (lenN (code [ins (array_op w) [k] []])) with 3 in *.
      assert (CW : counter w) by (unfold counter; cbn [In] in XW; intuition).
      unfold code, instr_bytes, ins in P. cbn [opcode refs args flat_map] in P. rewrite !app_nil_r in P.
      destruct (placed_key bc q _ k [] ltac:(rewrite app_nil_r; exact P) K s R5) as (HO & HK & HI).
      set (cb := bytes_of o (N.to_nat w) c) in *. assert (LC : lenN cb = w) by (unfold cb; rewrite lenN_bytes_of; lia). rewrite LC in *.
      destruct m.
      + pose proof (starts_prefixed_enc host bc s h w h1 r) as AS. cbv zeta in AS. rewrite HO, HK, AN, BP in AS.
        specialize (AS (array_op_bytes w CW) HI R1 ltac:(rewrite A2, lenN_app; lia) PL HR). rewrite R4 in AS. fold cb in AS. rewrite A2, put_front in AS by lia.
        rewrite <- after_front in AS. eexists. split; [exact AS|]. split; [lia|].
        unfold aligned, at_point, ready. cbn [md tr boff en ip loops buf cur set_ip set_boff set_cur set_buf]. rewrite R5. repeat split; auto.
      + assert (VV : val_of (en s) (sub (buf s) (lenN p) w) = c).
        { rewrite A2, <- (F2 eq_refl), after_front, <- LC, sub_front. unfold cb. rewrite R4, val_bytes. now apply mod_pow. }
        pose proof (starts_prefixed_dec host bc s h w h1 r) as AS. cbv zeta in AS. rewrite HO, HK, BP, VV, AN in AS.
        specialize (AS (array_op_bytes w CW) HI R1 ltac:(rewrite A2, lenN_app; lia) PL HR). eexists. split; [exact AS|]. split; [lia|].
        rewrite (F2 eq_refl). unfold aligned, at_point, ready. cbn [md tr boff en ip loops buf cur set_ip set_boff set_cur set_buf]. rewrite R5. repeat split; auto.
  Qed.

  Lemma mark_point q (big : bool) l s h m o o2 L bf p t h1 bf' p' : placed bc q (code (marked big l)) -> at_point s m o q L bf p ->
    (forall q1 s1, placed bc q1 (code l) -> at_point s1 m (order_in big o) q1 L bf p ->
       exists n s', steps n s1 h s' h1 t /\ at_point s' m o2 (q1 + lenN (code l)) L bf' p') ->
    exists n s', steps n s h s' h1 t /\ at_point s' m (order_out big o2) (q + lenN (code (marked big l))) L bf' p'.
  Proof.
    intros P R X. destruct big; [|exact (X q s P R)]. cbn [marked order_in order_out] in *.
    rewrite !code_app in P |- *. rewrite !lenN_app. apply placed_app in P as (P1 & P). apply placed_app in P as (P2 & P3).
    change (lenN (code [ins 2 [] []])) with 1 in *. change (lenN (code [ins 1 [] []])) with 1 in *.
    destruct (order_point host lm bc q true s h m o L bf p P1 R) as (s1 & S1 & R1).
    destruct (X (q + 1) s1 P2 R1) as (n & s2 & S2 & R2).
    destruct (order_point host lm bc _ false s2 h1 m o2 L bf' p' P3 R2) as (s3 & S3 & R3).
    exists (1 + (n + 1))%nat, s3. split.
    - change t with ([] ++ t). rewrite <- (app_nil_r t). eapply steps_trans; [exact S1|]. eapply steps_trans; [exact S2|exact S3].
    - rewrite !N.add_assoc. exact R3.
  Qed.

  Variables (m : mode) (id : list N -> N) (names : N).
  Hypothesis NM : names <= 65536.
  Definition run_member (pre : list N) (pos : N) (old : list N) (a : member) (d : tree) (z : N) (t : list event) : Prop :=
    forall q s o L p h h', member_plain a -> small id names (member_names pre a) -> depth a + lenN L <= 8 -> tree_ok a d -> tree_skips names a d ->
    placed bc q (code (member_instrs id pre a)) -> at_point s m o q L (p ++ old) pos -> lenN p = pos -> wf_bytes (p ++ old) ->
    fits m (fst (member_bytes a d o)) old -> plays host h t h' ->
    exists n s', steps n s h s' h' t /\ at_point s' m (snd (member_bytes a d o)) (q + lenN (code (member_instrs id pre a))) L (p ++ after (fst (member_bytes a d o)) old) (pos + z).
  Definition run_members (pre : list N) (pos : N) (old : list N) (b : list member) (ds : list tree) (z : N) (t : list event) : Prop :=
    forall q s o L p h h', every member_plain b -> small id names (flat_map (member_names pre) b) -> fold_right N.max 0 (map depth b) + lenN L <= 8 ->
    every2 tree_ok b ds -> every2 (tree_skips names) b ds ->
    placed bc q (code (flat_map (member_instrs id pre) b)) -> at_point s m o q L (p ++ old) pos -> lenN p = pos -> wf_bytes (p ++ old) ->
    fits m (fst (members_bytes b ds o)) old -> plays host h t h' ->
    exists n s', steps n s h s' h' t /\
      at_point s' m (snd (members_bytes b ds o)) (q + lenN (code (flat_map (member_instrs id pre) b))) L (p ++ after (fst (members_bytes b ds o)) old) (pos + z).
  Definition run_groups (pre : list N) (pos : N) (old : list N) (n : list N) (b : list member) (gs : list (list tree)) (z : N) (t : list event) : Prop :=
    forall q s o L p h h', every member_plain b -> small id names ((pre ++ n) :: flat_map (member_names (inside pre n)) b) ->
    every (fun g => every2 tree_ok b g) gs -> every (fun g => every2 (tree_skips names) b g) gs ->
    placed bc q (code (body id pre n b)) -> lenN p = pos -> wf_bytes (p ++ old) -> fits m (fst (groups_bytes b gs o)) old ->
    (lenN gs = 1 -> fold_right N.max 0 (map depth b) + lenN L <= 8 -> at_point s m o q L (p ++ old) pos -> plays host h t h' ->
      exists n0 s', steps n0 s h s' h' t /\ at_point s' m (snd (groups_bytes b gs o)) (q + lenN (code (body id pre n b))) L (p ++ after (fst (groups_bytes b gs o)) old) (pos + z)) /\
    (forall r, 0 < lenN gs < eof_mark -> fold_right N.max 0 (map depth b) + (1 + lenN L) <= 8 -> placed bc (q + lenN (code (body id pre n b))) (code [ins 0x38 [] []]) ->
      r_ok r = true -> at_point s m o q ((q, lenN gs) :: L) (p ++ old) pos -> plays host h (t ++ [(end_call, r)]) h' ->
      exists n0 s', steps n0 s h s' h' (t ++ [(end_call, r)]) /\
        at_point s' m (snd (groups_bytes b gs o)) (q + lenN (code (body id pre n b)) + 1) L (p ++ after (fst (groups_bytes b gs o)) old) (pos + z)).
  Lemma small_le a b ns : a <= b -> small id a ns -> small id b ns.
  Proof. intros L S n I. specialize (S n I). lia. Qed.

  Lemma said_runs :
    (forall pre pos old a d z t, said m id pre pos old a d z t -> run_member pre pos old a d z t) /\
    (forall pre pos old n b gs z t, said_groups m id pre pos old n b gs z t -> run_groups pre pos old n b gs z t) /\
    (forall pre pos old b ds z t, said_members m id pre pos old b ds z t -> run_members pre pos old b ds z t).
  Proof.
    apply said_ind3.
    - (* a plain field *)
      intros pre pos old f d t S q s o L p h h' MP I DL TO TS P AT LP WF F PL. cbn [member_plain member_names tree_ok tree_skips member_instrs] in *. apply small_cons in I as (K & _).
      rewrite flat_bytes in *. cbn [fst snd] in *. subst pos.
      replace (order_out (f_big f) o) with (order_out (f_big f) (order_in (f_big f) o)) by (destruct (f_big f); reflexivity).
      eapply mark_point; eauto. intros q1 s1 P1 AT1. rewrite <- (datum_len (order_in (f_big f) o)). eapply content_talk; eauto; [lia| |].
      + intros E. specialize (TS E). lia.
      + intros A. cbn [depth] in DL. destruct (f_content f) as [ty [|c|w]|c|w]; cbn [array extent_depth] in *; try easy; lia.
    - (* a structure or an array of structures *)
      intros pre pos old os x n b gs z t1 t2 t3 C S IG E q s o L p h h' MP I DL TO TS P AT LP WF F PL.
      cbn [member_plain member_names tree_ok tree_skips member_instrs depth] in *. destruct MP as (XW & MP), TO as (XO & TO), TS as (TZ & TS).
      rewrite nest_bytes in *. cbn [fst snd] in *. subst pos. set (big := last os false) in *.
      change ([ins 3 [id (pre ++ n)] []] ++ flat_map (member_instrs id (inside pre n)) b ++ [ins 4 [] []]) with (body id pre n b) in *.
      eapply mark_point; eauto. clear s q P AT. intros q s P AT. set (o1 := order_in big o) in *.
      destruct (fits_app _ _ _ _ F) as (F1 & F2). rewrite extent_len in F2.
      assert (ZL : lenN (fst (groups_bytes b gs o1)) = z) by (eapply said_sizes; eauto).
      apply plays_app in PL as (h1 & PL1 & PL). apply plays_app in PL as (h2 & PL2 & PL3).
      pose proof (proj1 (proj1 (small_cons _ _ _ _) I)) as K.
      destruct (classic_one x) as [-> |NX].
      + cbn [counts ends extent_ok extent_bytes extent_size repeated extent_depth app] in *. subst t1 t3. inversion PL1; inversion PL3; subst. cbn [skipn N.to_nat] in *. rewrite app_nil_r. cbn [app].
        rewrite N.add_0_r in IG. rewrite N.add_0_l in *.
        destruct (IG q s o1 L p h1 h' MP I TO TS P eq_refl WF F2) as (A & _). apply A; auto; lia.
      + rewrite (repeated_eq x (id (pre ++ n)) _ NX) in *. rewrite !code_app in P |- *. rewrite !lenN_app. apply placed_app in P as (P1 & P). apply placed_app in P as (P2 & P3).
        destruct (array_head _ _ _ _ _ _ _ _ _ _ _ _ _ NX P1 ltac:(lia) XO XW C PL1 AT F1) as (y & AS & IL & ATY).
        assert (B8 : boff s < 8) by (destruct (at_point_byte _ _ _ _ _ _ _ AT); auto).
        assert (WS : wf_bytes (buf s)) by (destruct AT as (_ & _ & -> & _); exact WF).
        set (qb := q + lenN (code [head x (id (pre ++ n))])) in *. set (B := code (body id pre n b)) in *.
        pose proof (extent_len o1 x (lenN gs)) as XL.
        assert (ED : extent_depth x = 1) by (destruct x; easy). rewrite ED in DL.
        assert (CE : lenN gs < eof_mark) by (unfold eof_mark; destruct x; cbn [extent_ok] in XO; [easy|destruct XO; subst; lia|lia]).
        pose proof (placed_le _ _ _ P3) as Q3. change (lenN (code [ins 56 [] []])) with 1 in Q3.
        rewrite after_front, XL, app_assoc in ATY.
        assert (WP : wf_bytes ((p ++ extent_bytes o1 x (lenN gs)) ++ skipn (N.to_nat (extent_size x)) old)).
        { rewrite <- XL. apply wf_after; [exact WF|]. destruct x; cbn [extent_bytes]; try constructor. apply wf_bytes_of. }
        assert (LP : lenN (p ++ extent_bytes o1 x (lenN gs)) = lenN p + extent_size x) by (rewrite lenN_app, XL; reflexivity).
        assert (EA : (p ++ extent_bytes o1 x (lenN gs)) ++ after (fst (groups_bytes b gs o1)) (skipn (N.to_nat (extent_size x)) old) = p ++ after (extent_bytes o1 x (lenN gs) ++ fst (groups_bytes b gs o1)) old).
        { rewrite <- after_two, XL, <- app_assoc. reflexivity. }
        change (lenN (code [ins 56 [] []])) with 1. replace (q + (lenN (code [head x (id (pre ++ n))]) + (lenN B + 1))) with (qb + lenN B + 1) by (unfold qb; lia).
        rewrite N.add_assoc. rewrite <- EA. pose proof ATY as ((Y1 & Y2 & Y3 & Y4 & Y5) & Z1 & Z2 & Z3).
        destruct gs as [|g gs0].
        * (* nothing *)
          inversion S; subst. change (lenN []) with 0 in *. assert (T3 : t3 = []) by (destruct x; [exact E|exact E|exact E]). subst t3. inversion PL2; inversion PL3; subst.
          destruct (TZ eq_refl) as (NL & Q).
          assert (BB : balanced B).
          { apply body_bal; [lia|]. apply members_bal; auto. apply small_cons in I as (_ & I). eapply small_le; [|exact I]. exact NL. }
          exists 1%nat, (set_ip y (qb + lenN B + 1)). split.
          -- rewrite <- (app_nil_r (t1 ++ [] ++ [])). eapply steps_more; [exact IL|eapply starts_op; eauto| |constructor].
             change ([] ++ []) with (@nil event). eapply header_enters; eauto. rewrite <- Y5. apply enter_zero; auto.
             ++ rewrite Y5. exact (proj1 P2).
             ++ rewrite Y5. change (code [ins 56 [] []]) with [0x38] in P3. apply placed_one in P3 as (A & _). exact A.
             ++ rewrite Y5. lia.
          -- change (groups_bytes b [] o1) with (@nil N, o1). cbn [fst snd]. rewrite after_nil, N.add_0_r.
             unfold at_point, ready. cbn [md tr boff en ip loops buf cur set_ip]. repeat split; auto.
        * set (gs := g :: gs0) in *. assert (NZ : 0 < lenN gs) by (unfold gs; rewrite lenN_cons; lia).
          assert (X3 : exists r, r_ok r = true /\ t3 = [(end_call, r)]).
          { unfold ends in E. destruct (N.eqb_spec (lenN gs) 0); [lia|]. destruct x; [easy|exact E|exact E]. }
          destruct X3 as (r & HR & ->).
          destruct (IG qb (set_loops y ((qb, lenN gs) :: L)) o1 L (p ++ extent_bytes o1 x (lenN gs)) h1 h' MP I TO TS P2 LP WP F2) as (_ & A).
          destruct (A r ltac:(lia) ltac:(lia) P3 HR) as (n0 & s' & S' & AT').
          { unfold at_point, ready. cbn [md tr boff en ip loops buf cur set_loops]. repeat split; auto. }
          { eapply plays_join; eauto. }
          exists (Datatypes.S n0), s'. split; [|exact AT'].
          eapply steps_more; [exact IL|eapply starts_op; eauto| |exact S']. rewrite <- (app_nil_r t1). eapply header_enters; eauto.
          rewrite enter_loop; [|lia|left].
          -- rewrite push_loop by (rewrite Z1; lia). rewrite Y5, Z1. reflexivity.
          -- unfold byte_elements. rewrite Y5. unfold B, body in P2. rewrite code_app in P2. apply placed_app in P2 as (P2 & _).
             cbn [code flat_map instr_bytes opcode refs args ins app] in P2. apply placed_one in P2 as (A3 & _). rewrite A3. lia.
    - (* no group *)
      intros pre pos old n b q s o L p h h' MP I TO TS P LP WF F. change (lenN []) with 0. split; [lia|intros r X; lia].
    - (* a group *)
      intros pre pos old n b g gs z1 z2 t1 t2 r r' HR SM IM HR' SG IG q s o L p h h' MP I TO TS P LP WF F. cbn [every] in TO, TS. destruct TO as (TO1 & TO), TS as (TS1 & TS).
      pose proof (proj1 (said_sizes m id)) as _. assert (ZM : lenN (fst (members_bytes b g o)) = z1) by (eapply said_sizes; eauto).
      rewrite groups_cons in *. cbn [fst snd] in *. destruct (fits_app _ _ _ _ F) as (F1 & F2). rewrite ZM in F2. subst pos.
      set (o1 := snd (members_bytes b g o)) in *. set (bs := fst (members_bytes b g o)) in *. set (B := code (body id pre n b)) in *.
      pose proof (proj1 (small_cons _ _ _ _) I) as (K & I').
      assert (WP : wf_bytes ((p ++ bs) ++ skipn (N.to_nat z1) old)) by (rewrite <- ZM; apply wf_after; [exact WF|now apply members_ok_wf]).
      assert (LP : lenN (p ++ bs) = lenN p + z1) by (rewrite lenN_app; lia).
      assert (PASS : forall L s h h1, fold_right N.max 0 (map depth b) + lenN L <= 8 -> at_point s m o q L (p ++ old) (lenN p) ->
        plays host h ((enter_call (id (pre ++ n)), r) :: t1 ++ [(leave_call, r')]) h1 ->
        exists n0 s', steps n0 s h s' h1 ((enter_call (id (pre ++ n)), r) :: t1 ++ [(leave_call, r')]) /\ at_point s' m o1 (q + lenN B) L ((p ++ bs) ++ skipn (N.to_nat z1) old) (lenN p + z1)).
      { clear s h h' L. intros L s h h' DL AT PL. unfold B, body in P |- *. rewrite !code_app in P |- *. rewrite !lenN_app. apply placed_app in P as (P1 & P). apply placed_app in P as (P2 & P3).
        change (lenN (code [ins 3 [id (pre ++ n)] []])) with 3 in *. change (lenN (code [ins 4 [] []])) with 1 in *.
        apply plays_cons in PL as (h1 & HH & PL'). apply plays_app in PL' as (h2 & PL1 & PL2). apply plays_one in PL2.
        destruct (enter_point _ _ _ _ _ _ _ _ _ _ _ P1 ltac:(lia) AT HH HR) as (s1 & S1 & AT1).
        destruct (IM _ s1 o L p h1 h2 MP I' DL TO1 TS1 P2 AT1 eq_refl WF F1 PL1) as (n1 & s2 & S2 & AT2). fold o1 bs in AT2. rewrite after_front, ZM, app_assoc in AT2.
        destruct (leave_point _ _ _ _ _ _ _ _ _ _ P3 AT2 PL2 HR') as (s3 & S3 & AT3).
        exists (1 + (n1 + 1))%nat, s3. split; [|rewrite !N.add_assoc; exact AT3].
        change ((enter_call (id (pre ++ n)), r) :: t1 ++ [(leave_call, r')]) with ([(enter_call (id (pre ++ n)), r)] ++ t1 ++ [(leave_call, r')]).
        eapply steps_trans; [exact S1|]. eapply steps_trans; [exact S2|exact S3]. }
      assert (EA : forall l, (p ++ bs) ++ after l (skipn (N.to_nat z1) old) = p ++ after (bs ++ l) old).
      { intros l. rewrite <- after_two, ZM, <- app_assoc. reflexivity. }
      assert (ET : forall l, (enter_call (id (pre ++ n)), r) :: t1 ++ (leave_call, r') :: l = ((enter_call (id (pre ++ n)), r) :: t1 ++ [(leave_call, r')]) ++ l).
      { intros l. cbn [app]. rewrite <- app_assoc. reflexivity. }
      rewrite lenN_cons. split.
      + intros LG DL AT PL. assert (gs = []) as -> by (destruct gs; [reflexivity|rewrite lenN_cons in LG; lia]). inversion SG; subst.
        change (groups_bytes b [] o1) with (@nil N, o1). cbn [fst snd]. rewrite N.add_0_r. rewrite <- (EA []), after_nil. apply PASS; auto.
      + intros re LG DL P3 HE AT PL. cbn [app] in PL |- *. rewrite <- app_assoc in PL |- *. cbn [app] in PL |- *. rewrite ET in PL |- *. apply plays_app in PL as (h1 & PL1 & PL2).
        destruct (PASS ((q, lenN gs + 1) :: L) s h h1 ltac:(rewrite lenN_cons; lia) AT PL1) as (n1 & s1 & S1 & AT1).
        destruct gs as [|g2 gs].
        * inversion SG; subst. change (groups_bytes b [] o1) with (@nil N, o1). cbn [fst snd] in *. change ([] ++ [(end_call, re)]) with [(end_call, re)] in *. change (lenN (@nil (list tree)) + 1) with 1 in *. apply plays_one in PL2.
          destruct (lap_last _ _ _ _ _ _ _ _ _ _ _ P3 AT1 PL2 HE) as (s2 & S2 & AT2). exists (n1 + 1)%nat, s2. split; [eapply steps_trans; eauto|].
          rewrite N.add_0_r. rewrite <- (EA []), after_nil. exact AT2.
        * assert (NZ : 0 < lenN (g2 :: gs)) by (rewrite lenN_cons; lia). set (gl := g2 :: gs) in *.
          destruct (lap_again _ h1 _ _ _ _ _ _ _ _ P3 ltac:(split; [|apply LG]; lia) AT1) as (s2 & S2 & AT2).
          replace (lenN gl + 1 - 1) with (lenN gl) in AT2 by lia.
          destruct (IG q s2 o1 L (p ++ bs) h1 h' MP I TO TS P LP WP F2) as (_ & A).
          destruct (A re ltac:(lia) DL P3 HE AT2 PL2) as (n2 & s3 & S3 & AT3).
          exists (n1 + (1 + n2))%nat, s3. split.
          -- eapply steps_trans; [exact S1|]. change (t2 ++ [(end_call, re)]) with ([] ++ t2 ++ [(end_call, re)]). eapply steps_trans; [exact S2|exact S3].
          -- rewrite N.add_assoc, <- EA. exact AT3.
    - intros pre pos old q s o L p h h' MP I DL TO TS P AT LP WF F PL. inversion PL; subst. exists 0%nat, s. split; [constructor|].
      change (members_bytes [] [] o) with (@nil N, o). cbn [fst snd flat_map]. change (lenN (code [])) with 0. rewrite after_nil, !N.add_0_r. exact AT.
    - intros pre pos old a b d ds z1 z2 t1 t2 SA IA SB IB q s o L p h h' MP I DL TO TS P AT LP WF F PL. cbn [every every2 flat_map map fold_right] in *.
      destruct MP as (MA & MP), TO as (TA & TO), TS as (TSA & TS). apply small_app in I as (I1 & I2). rewrite code_app in P |- *. rewrite lenN_app. apply placed_app in P as (P1 & P2).
      assert (ZM : lenN (fst (member_bytes a d o)) = z1) by (eapply said_sizes; eauto). subst pos.
      rewrite members_cons in *. cbn [fst snd] in *. destruct (fits_app _ _ _ _ F) as (F1 & F2). rewrite ZM in F2. apply plays_app in PL as (h1 & PL1 & PL2).
      destruct (IA q s o L p h h1 MA I1 ltac:(lia) TA TSA P1 AT eq_refl WF F1 PL1) as (n1 & s1 & S1 & AT1). rewrite after_front, ZM, app_assoc in AT1.
      destruct (IB _ s1 _ L (p ++ fst (member_bytes a d o)) h1 h' MP I2 ltac:(lia) TO TS P2 AT1 ltac:(rewrite lenN_app; lia)) as (n2 & s2 & S2 & AT2); auto.
      { rewrite <- ZM. apply wf_after; [exact WF|now apply tree_wf]. }
      exists (n1 + n2)%nat, s2. split; [eapply steps_trans; eauto|]. rewrite <- after_two, ZM, !N.add_assoc. rewrite <- app_assoc in AT2. exact AT2.
  Qed.
End Run.

(** ** The whole packet *)
Definition sound (l : list instr) : Prop := Forall (fun i => opcode i < 256 /\ wf_bytes (args i)) l.
Lemma content_sound c k : content_wf c -> sound (content_instrs c k).
Proof.
  intros W. destruct c as [ty [|m|w]|m|w]; cbn [content_instrs content_wf] in *; repeat apply Forall_cons; try apply Forall_nil; cbn [ins opcode args];
    (split; [try lia|first [apply (wf_bytes_of LE)|constructor]]).
  - unfold array_op. destruct w as [|[[]|[]|]]; lia.
  - unfold string_op. destruct w as [|[[]|[]|]]; lia.
Qed.
Lemma marked_sound big l : sound l -> sound (marked big l).
Proof. intros B. destruct big; [|exact B]. cbn [marked]. repeat (apply Forall_app; split); auto; repeat constructor. Qed.
Lemma repeated_sound x k l : sound l -> sound (repeated x k l).
Proof.
  intros B. destruct x as [|n|w]; [exact B| |]; cbn [repeated]; repeat (apply Forall_app; split); auto; (constructor; [|constructor]); cbn [ins opcode args]; (split; [try lia|first [apply (wf_bytes_of LE)|constructor]]).
  unfold array_op. destruct w as [|[[]|[]|]]; lia.
Qed.
Lemma member_sound id m : forall pre, member_plain m -> sound (member_instrs id pre m).
Proof.
  induction m as [f|os x n b IH] using member_induction; intros pre W; cbn [member_instrs member_plain] in *; apply marked_sound.
  - now apply content_sound.
  - destruct W as (_ & W). apply every_forall in W. apply repeated_sound. repeat (apply Forall_app; split); repeat constructor.
    clear - IH W. induction IH as [|a l X F IHl]; [constructor|]. inversion W; subst. cbn [flat_map]. apply Forall_app. split; [now apply X|now apply IHl].
Qed.
Lemma schema_sound id k : every member_plain (sc_members k) -> sound (schema_instrs id k).
Proof.
  intros W. unfold schema_instrs. apply Forall_app. split; [|constructor; [repeat constructor|]].
  - apply Forall_forall. intros i I. apply in_map_iff in I as (b & <- & _). destruct b; (split; [reflexivity|constructor]).
  - apply every_forall in W. induction W as [|a l X F IH]; [constructor|]. cbn [flat_map]. apply Forall_app. split; [now apply member_sound|exact IH].
Qed.
Lemma member_read_plain env m ws : member_read env m ws -> (forall s b, In (s, b) env -> every member_plain b) -> member_plain m.
Proof.
  intros [f w (os & a & b & _ & CR & _)|os o x n b s w OR IE XR] KE; cbn [member_plain]; [eapply read_wf; eauto|]. split; [|eapply KE; eauto].
  destruct XR as [|? ? ? ?|w c I]; cbn [extent_wf]; auto. apply counters in I. unfold counter in I. cbn [In]. intuition.
Qed.
Lemma members_read_plain env b ws : members_read env b ws -> (forall s b, In (s, b) env -> every member_plain b) -> every member_plain b.
Proof. intros R KE. induction R as [|m l ws wr MR R IH]; [exact Logic.I|]. cbn [every]. split; [eapply member_read_plain; eauto|exact IH]. Qed.
Lemma structs_read_plain env l ws : structs_read env l ws -> (forall s b, In (s, b) env -> every member_plain b) -> forall s b, In (s, b) (env ++ l) -> every member_plain b.
Proof.
  induction 1 as [env|env s b l ws sc wr MR N1 N2 N3 SC R IH]; intros KE s' b' I; [rewrite app_nil_r in I; eauto|].
  apply (IH) with (s := s'); [|rewrite <- app_assoc; exact I]. intros s0 b0 J. apply in_app_iff in J as [J|[J|[]]]; [eauto|]. injection J as <- <-. eapply members_read_plain; eauto.
Qed.
Lemma schema_read_plain k ws : schema_read k ws -> every member_plain (sc_members k).
Proof.
  intros (sw & os & fw & SR & OR & FR & _). eapply members_read_plain; [exact FR|]. intros s b I. apply (structs_read_plain [] _ sw SR) with (s := s); [intros ? ? []|exact I].
Qed.

Section Whole.
  Context {H : Type} (host : H -> request -> H * reply) (lm : libm) (id : list N -> N) (k : schema) (names : N).
  Hypothesis MP : every member_plain (sc_members k).
  Hypothesis SM : small id names (schema_names k).
  Hypothesis NM : names <= 65536.
  Hypothesis DP : fold_right N.max 0 (map depth (sc_members k)) <= 8.
  Let bc := code (schema_instrs id k).
  Lemma whole_wf : wf_bytes bc.
  Proof. apply code_wf. now apply schema_sound. Qed.
  Lemma order_marks os : forall q s h m o L bf p, placed bc q (code (map (fun b : bool => ins (if b then 0x02 else 0x01) [] []) os)) -> at_point s m o q L bf p ->
    exists n s', steps host lm bc n s h s' h [] /\ at_point s' m (last (map (fun b : bool => if b then BE else LE) os) o) (q + lenN os) L bf p.
  Proof.
    induction os as [|b os IH]; intros q s h m o L bf p P R.
    - exists 0%nat, s. split; [constructor|]. change (lenN []) with 0. rewrite N.add_0_r. exact R.
    - cbn [map] in P. change (ins (if b then 2 else 1) [] [] :: ?l) with ([ins (if b then 2 else 1) [] []] ++ l) in P. rewrite code_app in P.
      apply placed_app in P as (P1 & P2). change (lenN (code [ins (if b then 2 else 1) [] []])) with 1 in P2.
      destruct (order_point host lm bc q b s h m o L bf p P1 R) as (s1 & S1 & R1).
      destruct (IH (q + 1) s1 h m _ L bf p P2 R1) as (n & s2 & S2 & R2).
      exists (1 + n)%nat, s2. split; [change (@nil event) with (@nil event ++ []); eapply steps_trans; eauto|].
      rewrite lenN_cons. replace (q + (lenN os + 1)) with (q + 1 + lenN os) by lia.
      replace (last (map (fun b : bool => if b then BE else LE) (b :: os)) o) with (last (map (fun b : bool => if b then BE else LE) os) (if b then BE else LE)); [exact R2|].
      destruct os as [|b' os]; [reflexivity|]. cbn [map]. clear. revert b'. induction os as [|c os IH]; intros b'; [reflexivity|]. cbn [map last] in *. apply IH.
  Qed.
  Lemma name_mark q n s h m o L bf p : placed bc q (code [ins 0x07 [n] []]) -> at_point s m o q L bf p ->
    exists s', steps host lm bc 1 s h s' h [] /\ at_point s' m o (q + 3) L bf p.
  Proof.
    intros P ((R1 & R2 & R3 & R4 & R5) & A1 & A2 & A3). pose proof whole_wf as WB. pose proof (placed_le _ _ _ P) as QL. change (lenN (code [ins 7 [n] []])) with 3 in QL.
    cbn [code flat_map instr_bytes opcode refs args ins app] in P. apply placed_one in P as (HO & _). rewrite <- R5 in HO. change (opcode_at bc s = 0x07) in HO.
    exists (set_ip s (ip s + 3)). split.
    - apply steps_one; [lia|lia|]. enter_op HO. enter_args. rewrite key_eq by (auto; lia). reflexivity.
    - unfold at_point, ready. cbn [md tr boff en ip loops buf cur set_ip]. rewrite R5. repeat split; auto.
  Qed.
  Lemma order_sum os : last (map (fun b : bool => if b then BE else LE) os) LE = if last os false then BE else LE.
  Proof. induction os as [|b os IH]; [reflexivity|]. destruct os as [|c os]; [reflexivity|]. exact IH. Qed.
  Lemma marks_len (os : list bool) : lenN (code (map (fun b : bool => ins (if b then 0x02 else 0x01) [] []) os)) = lenN os.
  Proof. induction os as [|b os IH]; [reflexivity|]. cbn [map]. rewrite code_cons, lenN_app, IH, lenN_cons. change (lenN (instr_bytes (ins (if b then 2 else 1) [] []))) with 1. lia. Qed.

  Lemma whole_steps m old ts z t h h' : said_members m id [] 0 old (sc_members k) ts z t -> every2 tree_ok (sc_members k) ts -> every2 (tree_skips names) (sc_members k) ts ->
    wf_bytes old -> fits m (message k ts) old -> plays host h t h' ->
    exists n s', steps host lm bc n (init m old) h s' h' t /\ lenN bc <= ip s' /\ buf s' = after (message k ts) old /\ cur s' = lenN (message k ts) /\ boff s' = 0.
  Proof.
    intros SD TO TS WD F PL. pose proof whole_wf as WB.
    assert (P : placed bc 0 bc) by (apply placed_split; exists [], []; now rewrite app_nil_r). unfold bc in P at 2. unfold schema_instrs in P.
    change (ins 7 [id (sc_name k)] [] :: ?l) with ([ins 7 [id (sc_name k)] []] ++ l) in P. rewrite !code_app in P.
    apply placed_app in P as (P1 & P). apply placed_app in P as (P2 & P3). rewrite marks_len in *. change (lenN (code [ins 7 [id (sc_name k)] []])) with 3 in P3.
    destruct (order_marks (sc_orders k) 0 (init m old) h m LE [] old 0 P1 ltac:(repeat split)) as (n & s1 & S1 & R1).
    destruct (name_mark _ _ s1 h m _ [] old 0 P2 R1) as (s2 & S2 & R2). rewrite order_sum in R2. fold (schema_order k) in R2.
    destruct (proj2 (proj2 (said_runs host lm bc WB m id names NM)) _ _ _ _ _ _ _ SD (0 + lenN (sc_orders k) + 3) s2 (schema_order k) [] [] h h' MP) as (n3 & s3 & S3 & ((A1 & A2 & A3 & A4 & A5) & B1 & B2 & B3)); auto.
    - intros x I. apply SM. apply in_or_app. now left.
    - change (lenN (@nil (N * N))) with 0. rewrite N.add_0_r. exact DP.
    - exists (n + 1 + n3)%nat, s3. split; [|split; [|split; [exact B2|split; [|exact A3]]]].
      + change t with ([] ++ [] ++ t). rewrite app_assoc. eapply steps_trans; [eapply steps_trans; [exact S1|exact S2]|exact S3].
      + rewrite A5. unfold bc, schema_instrs. change (ins 7 [id (sc_name k)] [] :: ?l) with ([ins 7 [id (sc_name k)] []] ++ l). rewrite !code_app, !lenN_app, marks_len. change (lenN (code [ins 7 [id (sc_name k)] []])) with 3. lia.
      + rewrite B3. pose proof (proj2 (proj2 (said_sizes m id)) _ _ _ _ _ _ _ SD (schema_order k)) as Z. unfold message. rewrite Z. lia.
  Qed.
  Lemma whole_run m old ts z t h h' : said_members m id [] 0 old (sc_members k) ts z t -> every2 tree_ok (sc_members k) ts -> every2 (tree_skips names) (sc_members k) ts ->
    wf_bytes old -> fits m (message k ts) old -> plays host h t h' ->
    exists s' n, (forall fuel, (n <= fuel)%nat -> run host lm bc fuel (init m old) h = (Done EOk s', h', t)) /\
      buf s' = after (message k ts) old /\ position s' = 8 * lenN (message k ts).
  Proof.
    intros SD TO TS WD F PL. destruct (whole_steps m old ts z t h h' SD TO TS WD F PL) as (n & s' & S & L & B & C & BO).
    exists s', (Datatypes.S n). split; [intros fuel FU; eapply steps_run; eauto|]. split; [exact B|]. unfold position. rewrite C, BO. lia.
  Qed.
End Whole.
