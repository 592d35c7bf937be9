(** Lemmas about renumbering and prefixing of names. *)
From Coq Require Import ZifyBool ZifyNat ZifyN.
From Verif Require Import Base ModelWord ModelVM ModelImage ModelText ModelNames SpecBytes SpecVM SpecNames
  LemBase LemStr LemText.
Ltac Zify.zify_post_hook ::= Z.div_mod_to_equations.
Local Open Scope N_scope.

(** ** Reading the buffer *)
Lemma rd_at pre l k : rd (pre ++ l) (lenN pre + N.of_nat k) = nth k l 0.
Proof.
  unfold rd, lenN. rewrite app_nth2 by lia. f_equal. lia.
Qed.
Lemma rd_here pre x l : rd (pre ++ x :: l) (lenN pre) = x.
Proof. pose proof (rd_at pre (x :: l) 0) as H. rewrite N.add_0_r in H. exact H. Qed.
Lemma rd2_at pre k x y l : nth k l 0 = x -> nth (S k) l 0 = y -> rd2 (pre ++ l) (lenN pre + N.of_nat k) = x + 256 * y.
Proof.
  intros A B. unfold rd2. rewrite rd_at, A.
  replace (lenN pre + N.of_nat k + 1) with (lenN pre + N.of_nat (S k)) by lia. now rewrite rd_at, B.
Qed.
Lemma key_bytes k : le_bytes 2 k = [k mod 256; k / 256 mod 256].
Proof. reflexivity. Qed.
Lemma key_value k : k < 65536 -> k mod 256 + 256 * (k / 256 mod 256) = k.
Proof. lia. Qed.

(** ** Opcodes *)
Lemma below256 (P : N -> Prop) : Forall P (map N.of_nat (seq 0 256)) -> forall op, op < 256 -> P op.
Proof.
  intros F op L. apply (proj1 (Forall_forall _ _) F). apply in_map_iff. exists (N.to_nat op). split; [lia|].
  apply in_seq. lia.
Qed.

Ltac each256 := apply below256; (let l := eval vm_compute in (map N.of_nat (seq 0 256)) in
  change (map N.of_nat (seq 0 256)) with l); repeat apply Forall_cons; [..|apply Forall_nil]; cbv beta.

Definition odd_ops : list N := [0x06; 0x39; 0x4C; 0x4D; 0x53; 0x65].
Lemma keyed_names op : op < 256 -> ~ In op odd_ops -> keyed op = negb (names_of op =? 0).
Proof.
  intros L. pattern op. revert op L. each256.
  all: intros H; try reflexivity; exfalso; apply H; vm_compute; tauto.
Qed.
Lemma second_name op : op < 256 -> (op =? 0x3B) = (names_of op =? 2).
Proof. intros L. pattern op. revert op L. each256; reflexivity. Qed.

Lemma size_value t : get_type_size t = value_bytes t.
Proof. reflexivity. Qed.

(** Skipping the operands after the first name *)
Lemma skip_spec b op pre a post : op < 256 -> ~ In op odd_ops -> op <> 0x61 -> args_fit op a = true ->
  forall x y, skip_args b op (pre ++ (if op =? 0x3B then [x; y] else []) ++ a ++ post) (lenN pre) =
    lenN pre + (if op =? 0x3B then 2 else 0) + lenN a.
Proof.
  intros L NI NP F x y.
  assert (HL : forall r, lenN (pre ++ a ++ r) = lenN pre + lenN a + lenN r) by (intros; rewrite !lenN_app; idtac; clear; lia).
  assert (ZZ : forall z, (lenN a =? z) = true -> lenN pre + z = lenN pre + 0 + lenN a) by (intros; lia).
  assert (Z0 : (lenN a =? 0) = true -> lenN pre = lenN pre + 0 + lenN a) by (intros; lia).
  assert (T : forall n, match a with t :: v => lenN v =? n * value_bytes t | _ => false end = true ->
     (if lenN (pre ++ a ++ post) <? lenN pre + 1 then lenN pre else lenN pre + 1 + n * get_type_size (rd (pre ++ a ++ post) (lenN pre)))
     = lenN pre + 0 + lenN a).
  { intros n H. rewrite HL. destruct a as [|t v]; [discriminate|]. rewrite lenN_cons.
    destruct (N.ltb_spec (lenN pre + (lenN v + 1) + lenN post) (lenN pre + 1)); [lia|].
    cbn [app]. rewrite rd_here, size_value. generalize dependent (n * value_bytes t). intros. lia. }
  assert (T1 : match a with t :: v => lenN v =? value_bytes t | _ => false end = true ->
     match a with t :: v => lenN v =? 1 * value_bytes t | _ => false end = true).
  { destruct a as [|t v]; [auto|]. now rewrite N.mul_1_l. }
  revert F NP NI. pattern op. revert op L. each256.
  all: intros F NP NI; (try (exfalso; apply NI; vm_compute; tauto)); (try (exfalso; apply NP; reflexivity)).
  all: cbn [args_fit] in F; cbn [skip_args N.eqb Pos.eqb app].
  all: try (apply Z0; exact F); try (apply ZZ; exact F); try (apply T; try apply T1; exact F).
  - rewrite lenN_app, !lenN_cons, lenN_app. destruct (N.ltb_spec (lenN pre + (lenN a + lenN post + 1 + 1)) (lenN pre + 2)); lia.
  - rewrite HL. destruct a as [|t [|c [|d v]]]; try discriminate. rewrite !lenN_cons.
    destruct (N.ltb_spec (lenN pre + (lenN v + 1 + 1 + 1) + lenN post) (lenN pre + 3)); [lia|].
    cbn [app]. rewrite rd_here, size_value.
    pose proof (rd2_at pre 1 c d (t :: c :: d :: v ++ post) eq_refl eq_refl) as R.
    change (N.of_nat 1) with 1 in R. rewrite R. generalize dependent ((c + 256 * d) * value_bytes t). intros. lia.
  - rewrite HL. destruct (N.ltb_spec (lenN pre + lenN a + lenN post) (lenN pre + 4)); lia.
Qed.

(** ** One instruction *)
Lemma refs_cases i names : well_formed names i ->
  (names_of (opcode i) = 0 /\ refs i = []) \/
  (exists k, names_of (opcode i) = 1 /\ refs i = [k] /\ k < lenN names /\ k < 65536) \/
  (exists k k', names_of (opcode i) = 2 /\ refs i = [k; k'] /\ (k < lenN names /\ k < 65536) /\ k' < lenN names /\ k' < 65536).
Proof.
  intros (A & B & C & D & E). assert (names_of (opcode i) <= 2).
  { revert A. generalize (opcode i). intros op A. pattern op. revert op A. each256; discriminate. }
  destruct (refs i) as [|k [|k' [|z r]]]; rewrite ?lenN_cons, ?lenN_nil in D; [left; auto|right; left|right; right|].
  - exists k. inversion E; subst. intuition.
  - exists k, k'. inversion E as [|? ? E1 E2]; subst. inversion E2; subst. intuition.
  - lia.
Qed.

Lemma plain_ops i : optimiser_reads i -> ~ In (opcode i) odd_ops.
Proof. intros (A & B & C). unfold odd_ops. cbn [In] in *. intuition. Qed.

Lemma mark_step names i pre post used f : well_formed names i -> optimiser_reads i -> opcode i <> 0x61 ->
  mark (S f) (pre ++ instr_bytes i ++ post) (lenN pre) used =
  mark f (pre ++ instr_bytes i ++ post) (lenN (pre ++ instr_bytes i)) (fold_left mark_id (refs i) used).
Proof.
  intros W R NP. pose proof (refs_cases _ _ W) as RC. destruct W as (A & B & C & D & E).
  pose proof (plain_ops _ R) as NI. cbn [mark].
  set (bc := pre ++ instr_bytes i ++ post).
  assert (L : lenN bc = lenN pre + 1 + 2 * lenN (refs i) + lenN (args i) + lenN post).
  { unfold bc, instr_bytes. rewrite !lenN_app, lenN_cons, lenN_app.
    destruct RC as [(? & ->)|[(k & ? & -> & ?)|(k & k' & ? & -> & ?)]]; cbn [flat_map le_bytes app];
      rewrite ?lenN_cons, ?lenN_nil; lia. }
  rewrite D in L.
  destruct (N.leb_spec (lenN bc) (lenN pre)); [lia|].
  assert (OP : rd bc (lenN pre) = opcode i) by (unfold bc, instr_bytes; cbn [app]; apply rd_here).
  rewrite OP, (keyed_names _ A NI), (second_name _ A).
  pose proof (skip_spec true (opcode i)) as SK.
  destruct RC as [(N0 & RE)|[(k & N1 & RE & K1 & K2)|(k & k' & N2 & RE & K1 & K2 & K3)]].
  - rewrite N0, RE. cbn [N.eqb negb andb Pos.eqb fold_left].
    specialize (SK (pre ++ [opcode i]) (args i) post A NI NP C 0 0).
    rewrite (second_name _ A), N0 in SK. cbn [N.eqb app] in SK. rewrite lenN_app, lenN_cons, lenN_nil in SK.
    f_equal. unfold bc, instr_bytes. rewrite RE. cbn [flat_map app].
    rewrite <- app_assoc in SK. cbn [app] in SK. change (0 + 1) with 1 in SK. rewrite SK, lenN_app, lenN_cons. lia.
  - rewrite N1, RE. rewrite N1 in L. cbn [N.eqb negb andb Pos.eqb fold_left].
    destruct (N.ltb_spec (lenN bc) (lenN pre + 1 + 2)); [lia|].
    assert (K : rd2 bc (lenN pre + 1) = k).
    { transitivity (k mod 256 + 256 * (k / 256 mod 256)); [|apply key_value; lia]. unfold bc, instr_bytes. rewrite RE. cbn [flat_map]. rewrite key_bytes. cbn [app].
      exact (rd2_at pre 1 _ _ _ eq_refl eq_refl). }
    rewrite K. 
    specialize (SK (pre ++ opcode i :: le_bytes 2 k) (args i) post A NI NP C 0 0).
    rewrite (second_name _ A), N1 in SK. cbn [N.eqb Pos.eqb app] in SK.
    rewrite lenN_app, lenN_cons, key_bytes, !lenN_cons, lenN_nil in SK.
    f_equal. unfold bc, instr_bytes. rewrite RE. cbn [flat_map]. rewrite key_bytes. cbn [app].
    rewrite <- app_assoc in SK. cbn [app] in SK.
    replace (lenN pre + 1 + 2) with (lenN pre + (0 + 1 + 1 + 1)) by lia. rewrite SK, lenN_app, !lenN_cons. lia.
  - rewrite N2, RE. rewrite N2 in L. cbn [N.eqb negb andb Pos.eqb fold_left].
    destruct (N.ltb_spec (lenN bc) (lenN pre + 1 + 2)); [lia|].
    destruct (N.ltb_spec (lenN bc) (lenN pre + 1 + 2 + 2)); [lia|].
    assert (K : rd2 bc (lenN pre + 1) = k).
    { transitivity (k mod 256 + 256 * (k / 256 mod 256)); [|apply key_value; lia]. unfold bc, instr_bytes. rewrite RE. cbn [flat_map]. rewrite !key_bytes. cbn [app].
      exact (rd2_at pre 1 _ _ _ eq_refl eq_refl). }
    assert (K' : rd2 bc (lenN pre + 1 + 2) = k').
    { transitivity (k' mod 256 + 256 * (k' / 256 mod 256)); [|apply key_value; lia]. unfold bc, instr_bytes. rewrite RE. cbn [flat_map]. rewrite !key_bytes. cbn [app].
      replace (lenN pre + 1 + 2) with (lenN pre + N.of_nat 3) by lia.
      exact (rd2_at pre 3 _ _ _ eq_refl eq_refl). }
    rewrite K, K'. cbn [negb].
    specialize (SK (pre ++ opcode i :: le_bytes 2 k) (args i) post A NI NP C (k' mod 256) (k' / 256 mod 256)).
    rewrite (second_name _ A), N2 in SK. cbn [N.eqb Pos.eqb app] in SK.
    rewrite lenN_app, lenN_cons, key_bytes, !lenN_cons, lenN_nil in SK.
    f_equal. unfold bc, instr_bytes. rewrite RE. cbn [flat_map]. rewrite !key_bytes. cbn [app].
    rewrite <- app_assoc in SK. cbn [app] in SK.
    replace (lenN pre + 1 + 2) with (lenN pre + (0 + 1 + 1 + 1)) by lia. rewrite SK, lenN_app, !lenN_cons. lia.
Qed.

Definition renamed (m : list N) (i : instr) : instr :=
  {| opcode := opcode i; refs := map (fun k => nth (N.to_nat k) m 0) (refs i); args := args i |}.

Lemma renumber_at m a k b : k < lenN m -> k < 65536 ->
  renumber m (a ++ le_bytes 2 k ++ b) (lenN a) = a ++ le_bytes 2 (nth (N.to_nat k) m 0) ++ b.
Proof.
  intros L K. unfold renumber.
  assert (R : rd2 (a ++ le_bytes 2 k ++ b) (lenN a) = k).
  { transitivity (k mod 256 + 256 * (k / 256 mod 256)); [|apply key_value; lia].
    rewrite <- (N.add_0_r (lenN a)). exact (rd2_at a 0 _ _ _ eq_refl eq_refl). }
  rewrite R. rewrite (nth_error_nth' m 0) by (unfold lenN in L; lia).
  unfold lenN. rewrite Nat2N.id, firstn_app, Nat.sub_diag, firstn_all, firstn_O, app_nil_r. f_equal.
  change (le2 ?x) with (le_bytes 2 x). f_equal.
  rewrite skipn_app, (skipn_all2 a) by lia. replace (length a + 2 - length a)%nat with 2%nat by lia. reflexivity.
Qed.

Lemma remap_step names i m pre post f : well_formed names i -> optimiser_reads i -> opcode i <> 0x61 ->
  lenN m = lenN names ->
  remap (S f) m (pre ++ instr_bytes i ++ post) (lenN pre) =
  remap f m (pre ++ instr_bytes (renamed m i) ++ post) (lenN (pre ++ instr_bytes (renamed m i))).
Proof.
  intros W R NP LM. pose proof (refs_cases _ _ W) as RC. destruct W as (A & B & C & D & E).
  pose proof (plain_ops _ R) as NI. cbn [remap].
  set (bc := pre ++ instr_bytes i ++ post).
  assert (L : lenN bc = lenN pre + 1 + 2 * lenN (refs i) + lenN (args i) + lenN post).
  { unfold bc, instr_bytes. rewrite !lenN_app, lenN_cons, lenN_app.
    destruct RC as [(? & ->)|[(k & ? & -> & ?)|(k & k' & ? & -> & ?)]]; cbn [flat_map le_bytes app];
      rewrite ?lenN_cons, ?lenN_nil; lia. }
  rewrite D in L.
  destruct (N.leb_spec (lenN bc) (lenN pre)); [lia|].
  assert (OP : rd bc (lenN pre) = opcode i) by (unfold bc, instr_bytes; cbn [app]; apply rd_here).
  rewrite OP, (keyed_names _ A NI), (second_name _ A).
  pose proof (skip_spec false (opcode i)) as SK.
  destruct RC as [(N0 & RE)|[(k & N1 & RE & K1 & K2)|(k & k' & N2 & RE & (K1 & K2) & K3 & K4)]].
  - rewrite N0. cbn [N.eqb negb andb Pos.eqb].
    specialize (SK (pre ++ [opcode i]) (args i) post A NI NP C 0 0).
    rewrite (second_name _ A), N0 in SK. cbn [N.eqb app] in SK. rewrite lenN_app, lenN_cons, lenN_nil in SK.
    unfold bc, renamed, instr_bytes. cbn [opcode refs args]. rewrite RE. cbn [flat_map map app].
    rewrite <- app_assoc in SK. cbn [app] in SK. change (0 + 1) with 1 in SK. f_equal.
    rewrite SK, lenN_app, lenN_cons. lia.
  - rewrite N1. rewrite N1 in L. cbn [N.eqb negb andb Pos.eqb].
    destruct (N.ltb_spec (lenN bc) (lenN pre + 1 + 2)); [lia|].
    assert (RN : renumber m bc (lenN pre + 1) = (pre ++ opcode i :: le_bytes 2 (nth (N.to_nat k) m 0)) ++ args i ++ post).
    { pose proof (renumber_at m (pre ++ [opcode i]) k (args i ++ post) ltac:(lia) K2) as H1.
      rewrite lenN_app, lenN_cons, lenN_nil in H1. rewrite <- !app_assoc in H1. cbn [app] in H1.
      unfold bc, instr_bytes. rewrite RE. cbn [flat_map]. rewrite app_nil_r. rewrite <- !app_assoc. cbn [app].
      rewrite <- !app_assoc. exact H1. }
    rewrite RN.
    specialize (SK (pre ++ opcode i :: le_bytes 2 (nth (N.to_nat k) m 0)) (args i) post A NI NP C 0 0).
    rewrite (second_name _ A), N1 in SK. cbn [N.eqb Pos.eqb] in SK. rewrite app_nil_l in SK.
    replace (lenN pre + 1 + 2) with (lenN (pre ++ opcode i :: le_bytes 2 (nth (N.to_nat k) m 0)))
      by (rewrite lenN_app, lenN_cons, key_bytes, !lenN_cons, lenN_nil; lia).
    rewrite SK.
    unfold renamed, instr_bytes. cbn [opcode refs args]. rewrite RE. cbn [flat_map map]. rewrite app_nil_r.
    f_equal; [rewrite <- !app_assoc; cbn [app]; now rewrite <- !app_assoc|].
    rewrite !lenN_app, !lenN_cons, !lenN_app. lia.
  - rewrite N2. rewrite N2 in L. cbn [N.eqb negb andb Pos.eqb].
    destruct (N.ltb_spec (lenN bc) (lenN pre + 1 + 2)); [lia|].
    assert (RN : renumber m bc (lenN pre + 1) =
      (pre ++ opcode i :: le_bytes 2 (nth (N.to_nat k) m 0)) ++ le_bytes 2 k' ++ args i ++ post).
    { pose proof (renumber_at m (pre ++ [opcode i]) k (le_bytes 2 k' ++ args i ++ post) ltac:(lia) K2) as H1.
      rewrite lenN_app, lenN_cons, lenN_nil in H1. rewrite <- !app_assoc in H1. cbn [app] in H1.
      unfold bc, instr_bytes. rewrite RE. cbn [flat_map]. rewrite app_nil_r. rewrite <- !app_assoc. cbn [app].
      rewrite <- !app_assoc. exact H1. }
    rewrite RN.
    replace (lenN pre + 1 + 2) with (lenN (pre ++ opcode i :: le_bytes 2 (nth (N.to_nat k) m 0)))
      by (rewrite lenN_app, lenN_cons, key_bytes, !lenN_cons, lenN_nil; lia).
    match goal with |- context [?a <? ?b] => destruct (N.ltb_spec a b) as [HL|HL] end.
    { exfalso. revert HL. rewrite !lenN_app, !lenN_cons, !key_bytes, !lenN_cons, !lenN_nil. lia. }
    cbn [negb]. rewrite renumber_at by lia.
    specialize (SK (pre ++ opcode i :: le_bytes 2 (nth (N.to_nat k) m 0)) (args i) post A NI NP C
      (nth (N.to_nat k') m 0 mod 256) (nth (N.to_nat k') m 0 / 256 mod 256)).
    rewrite (second_name _ A), N2 in SK. cbn [N.eqb Pos.eqb] in SK. rewrite <- key_bytes in SK.
    rewrite SK.
    unfold renamed, instr_bytes. cbn [opcode refs args]. rewrite RE. cbn [flat_map map]. rewrite app_nil_r.
    f_equal; [rewrite <- !app_assoc; cbn [app]; now rewrite <- !app_assoc|].
    rewrite !lenN_app, !lenN_cons, !lenN_app, !key_bytes, !lenN_cons, !lenN_nil. lia.
Qed.

(** ** A pushed constant: the two passes take its first byte for a type and the others for instructions *)
Lemma mark_zeros n : forall pre post used f,
  mark (n + f) (pre ++ repeat 0 n ++ post) (lenN pre) used = mark f (pre ++ repeat 0 n ++ post) (lenN pre + N.of_nat n) used.
Proof.
  induction n as [|n IH]; intros pre post used f; [cbn; f_equal; lia|].
  cbn [Nat.add]. cbn [mark repeat app].
  destruct (N.leb_spec (lenN (pre ++ 0 :: repeat 0 n ++ post)) (lenN pre)) as [H|H]; [rewrite lenN_app, lenN_cons in H; lia|].
  rewrite rd_here. change (keyed 0) with false. cbn [andb N.eqb skip_args].
  specialize (IH (pre ++ [0]) post used f). rewrite <- app_assoc in IH. cbn [app] in IH.
  replace (lenN (pre ++ [0])) with (lenN pre + 1) in IH by (now rewrite lenN_app). rewrite IH. f_equal. lia.
Qed.
Lemma remap_zeros n m : forall pre post f,
  remap (n + f) m (pre ++ repeat 0 n ++ post) (lenN pre) = remap f m (pre ++ repeat 0 n ++ post) (lenN pre + N.of_nat n).
Proof.
  induction n as [|n IH]; intros pre post f; [cbn; f_equal; lia|].
  cbn [Nat.add]. cbn [remap repeat app].
  destruct (N.leb_spec (lenN (pre ++ 0 :: repeat 0 n ++ post)) (lenN pre)) as [H|H]; [rewrite lenN_app, lenN_cons in H; lia|].
  rewrite rd_here. change (keyed 0) with false. cbn [andb N.eqb skip_args].
  specialize (IH (pre ++ [0]) post f). rewrite <- app_assoc in IH. cbn [app] in IH.
  replace (lenN (pre ++ [0])) with (lenN pre + 1) in IH by (now rewrite lenN_app). rewrite IH. f_equal. lia.
Qed.

Lemma small_type v : v < 256 -> ~ In v [19; 23; 25] -> get_type_size v <= 4.
Proof.
  intros L. pattern v. revert v L. each256.
  all: intros H; try (vm_compute; discriminate); exfalso; apply H; vm_compute; tauto.
Qed.

Lemma push_bytes names i : well_formed names i -> opcode i = 0x61 -> optimiser_reads i ->
  exists v z, v < 256 /\ ~ In v [19; 23; 25] /\ (z + N.to_nat (get_type_size v) = 7)%nat /\ refs i = [] /\
    args i = v :: repeat 0 (N.to_nat (get_type_size v)) ++ repeat 0 z /\ instr_bytes i = 0x61 :: args i.
Proof.
  intros W O (_ & _ & P). destruct (P O) as (v & V & NV & E). pose proof (small_type v V NV).
  exists v, (7 - N.to_nat (get_type_size v))%nat. split; auto. split; auto. split; [lia|].
  assert (RE : refs i = []).
  { destruct W as (_ & _ & _ & D & _). rewrite O in D. change (names_of 97) with 0 in D. destruct (refs i); [auto|].
    rewrite lenN_cons in D. lia. }
  split; auto. split; [|unfold instr_bytes; now rewrite RE, O].
  rewrite E, <- repeat_app. replace (N.to_nat (get_type_size v) + (7 - N.to_nat (get_type_size v)))%nat with 7%nat by lia.
  reflexivity.
Qed.

Lemma mark_push names i pre post used : well_formed names i -> opcode i = 0x61 -> optimiser_reads i ->
  exists c, (c <= length (instr_bytes i))%nat /\ forall f,
  mark (c + f) (pre ++ instr_bytes i ++ post) (lenN pre) used =
  mark f (pre ++ instr_bytes i ++ post) (lenN (pre ++ instr_bytes i)) (fold_left mark_id (refs i) used).
Proof.
  intros W O R. destruct (push_bytes _ _ W O R) as (v & z & V & NV & Z & RE & AE & IE).
  exists (1 + z)%nat. split. { rewrite IE, AE. cbn [length]. rewrite app_length, !repeat_length. lia. }
  intros f. rewrite IE, RE, AE. cbn [fold_left]. set (s := N.to_nat (get_type_size v)) in *.
  cbn [Nat.add]. cbn [mark app].
  match goal with |- context [?a <=? ?b] => destruct (N.leb_spec a b) as [HL|HL] end.
  { rewrite lenN_app, lenN_cons in HL. lia. }
  rewrite rd_here. change (keyed 97) with false. cbn [andb N.eqb Pos.eqb skip_args].
  match goal with |- context [?a <? ?b] => destruct (N.ltb_spec a b) as [HL2|HL2] end.
  { rewrite lenN_app, !lenN_cons in HL2. lia. }
  assert (RV : rd (pre ++ 97 :: v :: (repeat 0 s ++ repeat 0 z) ++ post) (lenN pre + 1) = v) by exact (rd_at pre _ 1).
  rewrite RV, N.mul_1_l.
  pose proof (mark_zeros z (pre ++ 97 :: v :: repeat 0 s) post used f) as Q.
  assert (BE : (pre ++ 97 :: v :: repeat 0 s) ++ repeat 0 z ++ post = pre ++ 97 :: v :: (repeat 0 s ++ repeat 0 z) ++ post).
  { now rewrite <- !app_assoc. }
  rewrite BE in Q. assert (LE1 : lenN (pre ++ 97 :: v :: repeat 0 s) = lenN pre + 1 + 1 + get_type_size v).
  { rewrite lenN_app, !lenN_cons. unfold lenN at 2. rewrite repeat_length. lia. }
  rewrite LE1 in Q. rewrite Q. f_equal. rewrite lenN_app, !lenN_cons, !lenN_app. unfold lenN at 3 4. rewrite !repeat_length. lia.
Qed.
Lemma remap_push names i m pre post : well_formed names i -> opcode i = 0x61 -> optimiser_reads i ->
  exists c, (c <= length (instr_bytes i))%nat /\ forall f,
  remap (c + f) m (pre ++ instr_bytes i ++ post) (lenN pre) =
  remap f m (pre ++ instr_bytes (renamed m i) ++ post) (lenN (pre ++ instr_bytes (renamed m i))).
Proof.
  intros W O R. destruct (push_bytes _ _ W O R) as (v & z & V & NV & Z & RE & AE & IE).
  assert (IE2 : instr_bytes (renamed m i) = instr_bytes i) by (unfold instr_bytes, renamed; cbn; now rewrite RE).
  rewrite IE2.
  exists (1 + z)%nat. split. { rewrite IE, AE. cbn [length]. rewrite app_length, !repeat_length. lia. }
  intros f. rewrite IE, AE. set (s := N.to_nat (get_type_size v)) in *.
  cbn [Nat.add]. cbn [remap app].
  match goal with |- context [?a <=? ?b] => destruct (N.leb_spec a b) as [HL|HL] end.
  { rewrite lenN_app, lenN_cons in HL. lia. }
  rewrite rd_here. change (keyed 97) with false. cbn [andb N.eqb Pos.eqb skip_args].
  match goal with |- context [?a <? ?b] => destruct (N.ltb_spec a b) as [HL2|HL2] end.
  { rewrite lenN_app, !lenN_cons in HL2. lia. }
  assert (RV : rd (pre ++ 97 :: v :: (repeat 0 s ++ repeat 0 z) ++ post) (lenN pre + 1) = v) by exact (rd_at pre _ 1).
  rewrite RV, N.mul_1_l.
  pose proof (remap_zeros z m (pre ++ 97 :: v :: repeat 0 s) post f) as Q.
  assert (BE : (pre ++ 97 :: v :: repeat 0 s) ++ repeat 0 z ++ post = pre ++ 97 :: v :: (repeat 0 s ++ repeat 0 z) ++ post).
  { now rewrite <- !app_assoc. }
  rewrite BE in Q. assert (LE1 : lenN (pre ++ 97 :: v :: repeat 0 s) = lenN pre + 1 + 1 + get_type_size v).
  { rewrite lenN_app, !lenN_cons. unfold lenN at 2. rewrite repeat_length. lia. }
  rewrite LE1 in Q. rewrite Q. f_equal. rewrite lenN_app, !lenN_cons, !lenN_app. unfold lenN at 3 4. rewrite !repeat_length. lia.
Qed.

(** ** Whole programs *)
Lemma mark_code names p : Forall (well_formed names) p -> Forall optimiser_reads p ->
  forall pre used f, (length (code p) < f)%nat ->
  mark f (pre ++ code p) (lenN pre) used = Some (fold_left mark_id (flat_map refs p) used).
Proof.
  induction p as [|i p IH]; intros W R pre used f L.
  - cbn [code flat_map] in *. rewrite app_nil_r. destruct f; [lia|]. cbn [mark].
    destruct (N.leb_spec (lenN pre) (lenN pre)); [reflexivity|lia].
  - inversion W as [|? ? W1 W2]; inversion R as [|? ? R1 R2]; subst. cbn [code flat_map] in *.
    fold (code p) in *. rewrite app_length in L. rewrite fold_left_app.
    assert (S1 : exists c, (c <= length (instr_bytes i))%nat /\ forall f,
       mark (c + f) (pre ++ instr_bytes i ++ code p) (lenN pre) used =
       mark f (pre ++ instr_bytes i ++ code p) (lenN (pre ++ instr_bytes i)) (fold_left mark_id (refs i) used)).
    { destruct (N.eq_dec (opcode i) 0x61) as [E|E]; [now apply (mark_push names)|].
      exists 1%nat. split; [cbn; lia|]. intros f0. now apply (mark_step names). }
    destruct S1 as (c & C1 & C2).
    replace f with (c + (f - c))%nat by lia. rewrite C2, app_assoc. apply IH; auto. lia.
Qed.
Lemma remap_code names m p : lenN m = lenN names -> Forall (well_formed names) p -> Forall optimiser_reads p ->
  forall pre f, (length (code p) < f)%nat ->
  remap f m (pre ++ code p) (lenN pre) = Some (pre ++ code (map (renamed m) p)).
Proof.
  intros LM. induction p as [|i p IH]; intros W R pre f L.
  - cbn [code flat_map map] in *. rewrite app_nil_r. destruct f; [lia|]. cbn [remap].
    destruct (N.leb_spec (lenN pre) (lenN pre)); [reflexivity|lia].
  - inversion W as [|? ? W1 W2]; inversion R as [|? ? R1 R2]; subst. cbn [code flat_map map] in *.
    fold (code p) in *. rewrite app_length in L.
    assert (S1 : exists c, (c <= length (instr_bytes i))%nat /\ forall f,
       remap (c + f) m (pre ++ instr_bytes i ++ code p) (lenN pre) =
       remap f m (pre ++ instr_bytes (renamed m i) ++ code p) (lenN (pre ++ instr_bytes (renamed m i)))).
    { destruct (N.eq_dec (opcode i) 0x61) as [E|E]; [now apply (remap_push names)|].
      exists 1%nat. split; [cbn; lia|]. intros f0. now apply (remap_step names). }
    destruct S1 as (c & C1 & C2).
    replace f with (c + (f - c))%nat by lia. rewrite C2, app_assoc, IH, <- app_assoc; auto. lia.
Qed.

(** ** The marks and the new table *)
Lemma mark_id_len used k : length (mark_id used k) = length used.
Proof.
  unfold mark_id. rewrite app_length, firstn_length. pose proof (skipn_length (N.to_nat k) used) as H.
  destruct (skipn (N.to_nat k) used); cbn [length] in *; lia.
Qed.
Lemma mark_id_nth used k i : nth i (mark_id used k) false = true <->
  nth i used false = true \/ (i = N.to_nat k /\ (i < length used)%nat).
Proof.
  unfold mark_id. revert i. generalize (N.to_nat k). intros n. revert used.
  induction n as [|n IH]; intros used i.
  - cbn. destruct used as [|x used]; cbn; [destruct i; split; intros H; intuition; lia|].
    destruct i; cbn; split; intros H; intuition; lia.
  - destruct used as [|x used]; [cbn; destruct i; split; intros H; intuition; lia|].
    cbn [firstn skipn app length]. destruct i as [|i]; cbn [nth].
    + split; [auto|intros [H|[H _]]; [auto|discriminate]].
    + rewrite IH. split; intros [H|[H1 H2]]; auto; right; lia.
Qed.
Lemma marks_len ks : forall used, length (fold_left mark_id ks used) = length used.
Proof. induction ks as [|k ks IH]; intros used; cbn; auto. rewrite IH. apply mark_id_len. Qed.
Lemma marks_nth ks : forall used i, nth i (fold_left mark_id ks used) false = true <->
  nth i used false = true \/ (In (N.of_nat i) ks /\ (i < length used)%nat).
Proof.
  induction ks as [|k ks IH]; intros used i; cbn [fold_left].
  - cbn. intuition.
  - rewrite IH, mark_id_nth, mark_id_len. cbn [In]. split.
    + intros [[H|[H1 H2]]|[H1 H2]]; auto. right. split; auto. left. lia.
    + intros [H|[[H1|H1] H2]]; auto. left. right. lia.
Qed.

Lemma build_spec strs : Forall text strs -> forall used tab, length used = length strs ->
  Forall text tab -> NoDup tab -> lenN tab + lenN strs <= 65536 ->
  let (tab', m) := build_map strs used tab in
  NoDup tab' /\ Forall text tab' /\ lenN m = lenN strs /\ (exists x, tab' = tab ++ x) /\ lenN tab' <= lenN tab + lenN strs /\
  (forall i, nth i used false = true ->
     nth i m 0 < lenN tab' /\ nth (N.to_nat (nth i m 0)) tab' [] = nth i strs []) /\
  (forall s, In s tab' <-> In s tab \/ exists i, nth i used false = true /\ nth i strs [] = s).
Proof.
  induction 1 as [|s strs TS T IH]; intros used tab L TT ND B.
  - destruct used; [|discriminate]. cbn [build_map]. split; auto. split; auto. split; auto.
    split; [exists []; now rewrite app_nil_r|]. rewrite lenN_nil in *. split; [lia|].
    split; [intros i H; destruct i; discriminate|]. intros x. split; auto. intros [H|(i & H & _)]; auto. destruct i; discriminate.
  - destruct used as [|u used]; [discriminate|]. cbn [length] in L. rewrite lenN_cons in *. cbn [build_map]. destruct u.
    + rewrite cstr_text by auto.
      assert (L2 : lenN (fst (strtab_add tab s)) <= lenN tab + 1).
      { unfold strtab_add. destruct strtab_find; cbn [fst]; [lia|]. rewrite lenN_app, lenN_cons, lenN_nil. lia. }
      pose proof (add_spec tab s TT TS ND ltac:(lia) ltac:(lia)) as A.
      destruct (strtab_add tab s) as [tab1 id] eqn:AE. cbn [fst] in L2. destruct A as (A1 & A2 & A3 & A4 & (x & A5) & A6).
      specialize (IH used tab1 ltac:(lia) A4 A3 ltac:(lia)).
      destruct (build_map strs used tab1) as [tab' m]. destruct IH as (B1 & B2 & B3 & (y & B4) & B5 & B6 & B7).
      split; auto. split; auto. split; [rewrite lenN_cons; lia|].
      split; [exists (x ++ y); now rewrite B4, A5, app_assoc|]. split; [lia|]. split.
      * intros [|i] H; cbn [nth] in *; [|auto]. split; [rewrite B4, lenN_app; lia|].
        rewrite B4, app_nth1 by (unfold lenN in A1; lia). exact A2.
      * intros z. rewrite B7. split.
        -- intros [H|(i & H1 & H2)]; [|right; exists (S i); auto].
           unfold strtab_add in AE. destruct strtab_find; injection AE as <- <-; auto.
           apply in_app_iff in H. destruct H as [H|[<-|[]]]; auto. right. exists 0%nat. auto.
        -- intros [H|(i & H1 & H2)]; [left; rewrite A5; apply in_or_app; auto|].
           destruct i as [|i]; cbn [nth] in *; [|right; eauto]. subst z. left. rewrite <- A2. apply nth_In. unfold lenN in A1. lia.
    + specialize (IH used tab ltac:(lia) TT ND ltac:(lia)).
      destruct (build_map strs used tab) as [tab' m]. destruct IH as (B1 & B2 & B3 & (y & B4) & B5 & B6 & B7).
      split; auto. split; auto. split; [rewrite lenN_cons; lia|]. split; [eauto|]. split; [lia|]. split.
      * intros [|i] H; cbn [nth] in *; [discriminate|auto].
      * intros z. rewrite B7. split; (intros [H|(i & H1 & H2)]; [auto|right]).
        -- exists (S i). auto.
        -- destruct i as [|i]; cbn [nth] in *; [discriminate|eauto].
Qed.

Lemma Forall2_map {A B} (P : A -> B -> Prop) f l : (forall x, In x l -> P x (f x)) -> Forall2 P l (map f l).
Proof. induction l as [|x l IH]; intros H; cbn; constructor; [apply H; left; auto|apply IH; intros; apply H; right; auto]. Qed.
Lemma nth_false {A} (l : list A) i : nth i (map (fun _ => false) l) false = true -> False.
Proof. revert i. induction l as [|x l IH]; intros [|i]; cbn; try discriminate. apply IH. Qed.

Lemma optimize_spec names p : Forall text names -> lenN names <= 65536 ->
  Forall (well_formed names) p -> Forall optimiser_reads p -> names <> [] ->
  exists names' p', optimize_strings names (code p) = Some (names', code p') /\
    Forall2 (same_instr names names') p p' /\ NoDup names' /\ (forall s, In s names' <-> referenced names p s).
Proof.
  intros T L W R NE. unfold optimize_strings.
  destruct (N.eqb_spec (lenN names) 0) as [H|_]; [destruct names; [congruence|rewrite lenN_cons in H; lia]|].
  pose proof (mark_code names p W R [] (map (fun _ => false) names) (S (length (code p))) ltac:(lia)) as M.
  rewrite app_nil_l in M. change (lenN []) with 0 in M. rewrite M.
  set (used := fold_left mark_id (flat_map refs p) (map (fun _ => false) names)).
  assert (UL : length used = length names) by (unfold used; now rewrite marks_len, map_length).
  assert (UN : forall i, nth i used false = true <-> In (N.of_nat i) (flat_map refs p) /\ (i < length names)%nat).
  { intros i. unfold used. rewrite marks_nth, map_length. split; [intros [H|H]; auto; destruct (nth_false _ _ H)|auto]. }
  pose proof (build_spec names T used [] UL ltac:(constructor) ltac:(constructor) ltac:(rewrite lenN_nil; lia)) as B.
  destruct (build_map names used []) as [tab m]. destruct B as (B1 & B2 & B3 & _ & _ & B6 & B7).
  pose proof (remap_code names m p B3 W R [] (S (length (code p))) ltac:(lia)) as RM.
  rewrite !app_nil_l in RM. change (lenN []) with 0 in RM. rewrite RM.
  exists tab, (map (renamed m) p). split; auto. split; [|split; auto].
  - apply Forall2_map. intros i Hi. split; auto. split; auto. cbn [renamed refs]. apply Forall2_map. intros k Hk.
    pose proof (proj1 (Forall_forall _ _) W i Hi) as (_ & _ & _ & _ & E).
    pose proof (proj1 (Forall_forall _ _) E k Hk) as (K1 & K2).
    destruct (B6 (N.to_nat k)) as (C1 & C2).
    { apply UN. split; [rewrite N2Nat.id; apply in_flat_map; eauto|unfold lenN in K1; lia]. }
    split; auto.
  - intros s. rewrite B7. split.
    + intros [[]|(i & H1 & H2)]. apply UN in H1. destruct H1 as (H1 & H3). apply in_flat_map in H1.
      destruct H1 as (j & J1 & J2). exists j, (N.of_nat i). rewrite Nat2N.id. unfold lenN. repeat split; auto. lia.
    + intros (i & k & H1 & H2 & H3 & H4). right. exists (N.to_nat k). split; auto. apply UN.
      split; [rewrite N2Nat.id; apply in_flat_map; eauto|unfold lenN in H3; lia].
Qed.

(** ** Prefixing *)
Lemma names_grow strs x k : k < lenN strs -> nth (N.to_nat k) (strs ++ x) [] = nth (N.to_nat k) strs ([] : list N).
Proof. intros H. apply app_nth1. unfold lenN in H. lia. Qed.

Lemma sized_ops op : op < 256 ->
  In op [0x00; 0x01; 0x02; 0x03; 0x04; 0x07; 0x10; 0x11; 0x12; 0x13; 0x14; 0x15; 0x16; 0x17; 0x18; 0x19; 0x1A;
     0x20; 0x21; 0x22; 0x23; 0x24; 0x25; 0x26; 0x30; 0x31; 0x32; 0x33; 0x34; 0x35; 0x36; 0x37; 0x38; 0x39; 0x3A; 0x50; 0x51; 0x52;
     0x60; 0x61; 0x62; 0x63; 0x64; 0x65; 0x69; 0x6A; 0x6B; 0x6C; 0x6D; 0x6E; 0x6F; 0x70; 0x71; 0x72; 0x73; 0x74;
     0x75; 0x76; 0x77; 0x78; 0x80; 0x81; 0x82; 0x83; 0x84; 0x85; 0x86; 0x87; 0x88; 0x89; 0x8A; 0x8B; 0x90; 0x91;
     0x92; 0x93; 0x94; 0x95; 0x96; 0x97; 0xA0; 0xA1; 0xA2; 0xA3; 0xA4; 0xA5] ->
  forall a, args_fit op a = true ->
  opcode_size op = Some (1 + 2 * names_of op + (if op =? 0x22 then 0 else lenN a), negb (names_of op =? 0)) /\ names_of op <= 1.
Proof.
  intros L I a F. assert (Z : forall z, (lenN a =? z) = true -> lenN a = z) by (intros; lia).
  revert F. cbn [In] in I. 
  repeat (destruct I as [<-|I]; [cbn [args_fit]; intros F; apply Z in F; rewrite F; vm_compute; split; [reflexivity|discriminate]|]).
  destruct I.
Qed.

Lemma skipn_here {A} (a b : list A) n : n = length a -> skipn n (a ++ b) = b.
Proof. intros ->. rewrite skipn_app, skipn_all, Nat.sub_diag. reflexivity. Qed.
Lemma firstn_here {A} (a b : list A) n : n = length a -> firstn n (a ++ b) = a.
Proof. intros ->. rewrite firstn_app, firstn_all, Nat.sub_diag, firstn_O. apply app_nil_r. Qed.

(** One instruction without its trailing bit-boolean width, as the copier sees it *)
Lemma prefix_step op ks a rest prefix strs out size : op < 256 -> (length ks <= 1)%nat ->
  Forall (fun k => k < lenN strs /\ k < 65536) ks ->
  opcode_size op = Some (size, match ks with [] => false | _ => true end) ->
  size = 1 + 2 * lenN ks + lenN a -> Forall text strs -> NoDup strs -> text prefix -> lenN strs + 1 <= 65536 ->
  Forall (fun k => lenN prefix + 1 + lenN (nth (N.to_nat k) strs []) < 512) ks ->
  exists strs' ks', (forall f, append_with_prefix (S f) (op :: flat_map (le_bytes 2) ks ++ a ++ rest) prefix strs out =
    append_with_prefix f rest prefix strs' (out ++ op :: flat_map (le_bytes 2) ks' ++ a)) /\
    Forall text strs' /\ NoDup strs' /\ (exists x, strs' = strs ++ x) /\ lenN strs' <= lenN strs + 1 /\
    Forall2 (prefixed_name strs strs' prefix) ks ks'.
Proof.
  intros OL KL KF OS SE T ND TP SL FIT.
  assert (LS : (N.to_nat size = length (op :: flat_map (le_bytes 2) ks ++ a))%nat).
  { assert (length (flat_map (le_bytes 2) ks) = 2 * length ks)%nat
      by (destruct ks as [|k [|? ?]]; cbn [length] in *; try lia; reflexivity).
    subst size. unfold lenN. cbn [length]. rewrite app_length. lia. }
  cbn [append_with_prefix]. rewrite OS.
  replace (op :: flat_map (le_bytes 2) ks ++ a ++ rest) with ((op :: flat_map (le_bytes 2) ks ++ a) ++ rest)
    by (cbn [app]; now rewrite <- app_assoc).
  destruct (N.ltb_spec (lenN ((op :: flat_map (le_bytes 2) ks ++ a) ++ rest)) size) as [H|_].
  { exfalso. unfold lenN in H. rewrite app_length in H. lia. }
  rewrite skipn_here, firstn_here by auto.
  destruct ks as [|k [|? ?]]; cbn [length] in KL; [| |lia]; cbn [negb].
  - exists strs, []. cbn [flat_map app]. split; auto. split; auto. split; auto. split; [exists []; now rewrite app_nil_r|].
    split; [lia|constructor].
  - inversion KF as [|? ? (K1 & K2) _]; inversion FIT as [|? ? F1 _]; subst.
    assert (KR : rd2 ((op :: flat_map (le_bytes 2) [k] ++ a) ++ rest) 1 = k) by (apply key_value; auto).
    rewrite KR. unfold prefixed.
    assert (TK : text (nth (N.to_nat k) strs [])) by (apply (proj1 (Forall_forall _ _) T), nth_In; unfold lenN in K1; lia).
    rewrite cstr_text by auto. destruct (N.ltb_spec (lenN prefix + 1 + lenN (nth (N.to_nat k) strs [])) 512); [|lia].
    set (name := prefix ++ [46] ++ nth (N.to_nat k) strs []).
    assert (TN : text name) by (unfold name, text in *; rewrite !Forall_app; repeat split; auto; constructor; [lia|constructor]).
    assert (L2 : lenN (fst (strtab_add strs name)) <= lenN strs + 1).
    { unfold strtab_add. destruct strtab_find; cbn [fst]; [lia|]. rewrite lenN_app, lenN_cons, lenN_nil. lia. }
    pose proof (add_spec strs name T TN ND ltac:(lia) ltac:(lia)) as A.
    destruct (strtab_add strs name) as [strs' id] eqn:AE. cbn [fst] in L2. destruct A as (A1 & A2 & A3 & A4 & A5 & A6).
    exists strs', [id]. split.
    { intros f. reflexivity. }
    split; auto. split; auto. split; auto. split; auto. constructor; [|constructor]. split; auto.
Qed.

Lemma prefixed_grow names strs x prefix i j : prefixed_instr names strs prefix i j -> prefixed_instr names (strs ++ x) prefix i j.
Proof.
  intros (A & B & C). split; auto. split; auto. clear -C. induction C as [|k k' r r' (H1 & H2 & H3) C IH]; constructor; auto.
  split; auto. split; [rewrite lenN_app; lia|]. now rewrite names_grow.
Qed.

Lemma prefix_code names prefix p : text prefix -> Forall (well_formed names) p -> Forall copier_reads p ->
  (forall i k, In i p -> In k (refs i) -> lenN prefix + 1 + lenN (nth (N.to_nat k) names []) < 512) ->
  forall strs x out f, strs = names ++ x -> Forall text strs -> NoDup strs -> lenN strs + lenN p <= 65536 -> (length (code p) <= f)%nat ->
  exists strs' p', append_with_prefix f (code p) prefix strs out = Some (Ok (strs', out ++ code p')) /\
    (exists y, strs' = strs ++ y) /\ NoDup strs' /\ Forall text strs' /\ lenN strs' <= lenN strs + lenN p /\ Forall2 (prefixed_instr names strs' prefix) p p'.
Proof.
  intros TP W R FIT. induction p as [|i p IH]; intros strs x out f EX T ND L LF.
  - exists strs, []. cbn [code flat_map]. rewrite app_nil_r. split; [destruct f; reflexivity|].
    split; [exists []; now rewrite app_nil_r|]. repeat split; auto; try lia.
  - inversion W as [|? ? W1 W2]; inversion R as [|? ? R1 R2]; subst. cbn [code flat_map] in *. fold (code p) in *.
    rewrite lenN_cons in L. pose proof (refs_cases _ _ W1) as RC. destruct W1 as (A & B & C & D & E).
    destruct R1 as (RI & RB). pose proof (sized_ops _ A RI (args i) C) as (S1 & S2).
    assert (KL : (length (refs i) <= 1)%nat) by (unfold lenN in D; lia).
    assert (KE : negb (names_of (opcode i) =? 0) = match refs i with [] => false | _ => true end).
    { rewrite <- D. destruct (refs i); [reflexivity|]. rewrite lenN_cons. destruct (N.eqb_spec (lenN l + 1) 0); [lia|reflexivity]. }
    rewrite KE, <- D in S1.
    assert (KF : Forall (fun k => k < lenN (names ++ x) /\ k < 65536) (refs i)).
    { eapply Forall_impl; [|exact E]. cbv beta. intros k [K1 K2]. rewrite lenN_app. lia. }
    assert (FI : Forall (fun k => lenN prefix + 1 + lenN (nth (N.to_nat k) (names ++ x) []) < 512) (refs i)).
    { apply Forall_forall. intros k Hk. pose proof (proj1 (Forall_forall _ _) E k Hk) as (K1 & _). cbv beta.
      rewrite names_grow by auto. apply (FIT i); auto. left. auto. }
    assert (ST : exists c strs' ks', (1 <= c <= length (instr_bytes i))%nat /\
      (forall f, append_with_prefix (c + f) (instr_bytes i ++ code p) prefix (names ++ x) out =
         append_with_prefix f (code p) prefix strs' (out ++ opcode i :: flat_map (le_bytes 2) ks' ++ args i)) /\
      Forall text strs' /\ NoDup strs' /\ (exists x', strs' = (names ++ x) ++ x') /\ lenN strs' <= lenN (names ++ x) + 1 /\
      Forall2 (prefixed_name (names ++ x) strs' prefix) (refs i) ks').
    { unfold instr_bytes. revert S1. destruct (N.eqb_spec (opcode i) 34) as [E34|N34]; intros S1.
      - assert (NS : forall f strs out, append_with_prefix (S f) (args i ++ code p) prefix strs out =
          append_with_prefix f (code p) prefix strs (out ++ args i)).
        { intros f0 st0 out0. destruct (RB E34) as [-> | ->]; cbn [app append_with_prefix opcode_size];
            rewrite lenN_cons; (destruct (N.ltb_spec (lenN (code p) + 1) 1); [lia|]); reflexivity. }
        destruct (prefix_step (opcode i) (refs i) [] (args i ++ code p) prefix (names ++ x) out _ A KL KF S1 eq_refl T ND TP ltac:(lia) FI)
          as (strs' & ks' & P1 & P2).
        exists 2%nat, strs', ks'. split; [cbn [length]; destruct (RB E34) as [-> | ->]; rewrite app_length; cbn; lia|]. split; auto.
        intros f0. change (2 + f0)%nat with (S (S f0)). cbn [app]. rewrite <- app_assoc. specialize (P1 (S f0)). cbn [app] in P1.
        rewrite P1, NS, app_nil_r, <- app_assoc. cbn [app]. reflexivity.
      - destruct (prefix_step (opcode i) (refs i) (args i) (code p) prefix (names ++ x) out _ A KL KF S1 eq_refl T ND TP ltac:(lia) FI)
          as (strs' & ks' & P1 & P2).
        exists 1%nat, strs', ks'. split; [cbn [length]; lia|]. split; auto.
        intros f0. change (1 + f0)%nat with (S f0). cbn [app]. rewrite <- app_assoc. apply P1. }
    destruct ST as (c & strs' & ks' & C1 & C2 & C3 & C4 & (x' & C5) & C6 & C7).
    rewrite app_length in LF. 
    destruct (IH W2 R2 ltac:(intros; eapply FIT; eauto; right; auto) strs' (x ++ x') (out ++ opcode i :: flat_map (le_bytes 2) ks' ++ args i) (f - c)%nat
      ltac:(now rewrite C5, <- app_assoc) C3 C4 ltac:(lia) ltac:(lia)) as (strs2 & p' & I1 & (y & I2) & I3 & I4 & I5 & I6).
    exists strs2, ({| opcode := opcode i; refs := ks'; args := args i |} :: p'). split.
    { replace f with (c + (f - c))%nat by lia. rewrite C2, I1. cbn [code flat_map]. unfold instr_bytes at 2. cbn [opcode refs args].
      now rewrite <- app_assoc. }
    split; [exists (x' ++ y); now rewrite I2, C5, <- app_assoc|]. split; auto. split; auto. split; [rewrite lenN_cons; lia|].
    constructor; auto. rewrite I2. apply prefixed_grow. split; auto. split; auto. cbn [refs]. clear -C7 E.
    revert E. induction C7 as [|k k' r r' (H1 & H2 & H3) C7 IH]; intros E; constructor; inversion E; subst; [|auto].
    split; [lia|]. split; auto. rewrite H3, names_grow by lia. reflexivity.
Qed.

(** ** Programs that differ only in name numbers are determined by their bytes *)
Lemma key_inj k k' : k < 65536 -> k' < 65536 -> le_bytes 2 k = le_bytes 2 k' -> k = k'.
Proof. rewrite !key_bytes. intros A B E. injection E as E1 E2. rewrite <- (key_value k), <- (key_value k') by auto. lia. Qed.
Lemma app_inj_len {A} (a b c d : list A) : length a = length b -> a ++ c = b ++ d -> a = b /\ c = d.
Proof.
  revert b. induction a as [|x a IH]; intros [|y b] L E; try discriminate; [auto|].
  cbn in *. injection E as -> E. destruct (IH b ltac:(lia) E) as [-> ->]. auto.
Qed.
Lemma refs_inj ks ks' r r' : Forall (fun k => k < 65536) ks -> Forall (fun k => k < 65536) ks' -> length ks = length ks' ->
  flat_map (le_bytes 2) ks ++ r = flat_map (le_bytes 2) ks' ++ r' -> ks = ks' /\ r = r'.
Proof.
  intros F. revert ks'. induction F as [|k ks K F IH]; intros [|k' ks'] F' L E; try discriminate; [auto|].
  inversion F' as [|? ? K' F'2]; subst. cbn [flat_map] in E. rewrite <- !app_assoc in E.
  apply app_inj_len in E; [|reflexivity]. destruct E as [E1 E2]. apply key_inj in E1; auto.
  destruct (IH ks' F'2 ltac:(cbn in L; lia) E2) as [-> ->]. subst. auto.
Qed.
Definition alike (i j : instr) : Prop := opcode i = opcode j /\ args i = args j /\ length (refs i) = length (refs j).
Lemma code_inj p q : Forall2 alike p q -> Forall (fun i => Forall (fun k => k < 65536) (refs i)) p ->
  Forall (fun i => Forall (fun k => k < 65536) (refs i)) q -> code p = code q -> p = q.
Proof.
  induction 1 as [|i j p q (A & B & C) H IH]; intros F1 F2 E; [auto|].
  inversion F1; inversion F2; subst. cbn [code flat_map] in E. unfold instr_bytes in E at 1 3. cbn [app] in E.
  injection E as _ E. rewrite <- !app_assoc in E. apply refs_inj in E; auto. destruct E as [E1 E2].
  rewrite B in E2. apply app_inv_head in E2. f_equal; auto.
  destruct i, j; cbn in *; subst; auto.
Qed.
Lemma same_alike old new i j : same_instr old new i j -> alike i j.
Proof. intros (A & B & C). split; auto. split; auto. induction C; cbn; auto. Qed.

(** [q] is the only program with the shape of [p] the bytes of [q] stand for *)
Lemma only_reading old new p q : Forall2 alike p q -> Forall (fun i => Forall (fun k => k < 65536) (refs i)) q ->
  lenN new <= 65536 -> ~ Forall2 (same_instr old new) p q ->
  forall p', code q = code p' -> ~ Forall2 (same_instr old new) p p'.
Proof.
  intros A F L N p' E S. apply N. replace q with p'; auto.
  assert (A' : Forall2 alike p' q).
  { clear -S A. revert q A. induction S as [|i j p p' I S IH]; intros q A; inversion A as [|? k ? q' A1 A2]; subst; constructor; auto.
    apply same_alike in I. destruct I as (? & ? & ?), A1 as (? & ? & ?). repeat split; congruence. }
  apply code_inj; auto.
  clear -S L. induction S as [|i j p p' (_ & _ & I) S IH]; constructor; auto.
  induction I as [|k k' r r' (_ & H & _) I IHI]; constructor; auto. lia.
Qed.
