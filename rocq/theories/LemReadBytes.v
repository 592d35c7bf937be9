(** Messages are told apart by their bytes, and every beginning can be completed. *)
From Coq Require Import ZifyBool ZifyNat ZifyN.
From Verif Require Import Base SpecBytes ModelWord ModelFloat ModelTrans ModelVM SpecVM SpecParse SpecNames SpecPacket SpecMessage LemBase LemNames LemMessage SpecNest LemNest LemNestRun SpecRead.
Ltac Zify.zify_post_hook ::= Z.div_mod_to_equations.

(** ** Telling apart *)
Lemma bytes_apart o n v v' r r' : v < 2 ^ (8 * N.of_nat n) -> v' < 2 ^ (8 * N.of_nat n) -> bytes_of o n v ++ r = bytes_of o n v' ++ r' -> v = v' /\ r = r'.
Proof.
  intros B B' E. apply app_inj_len in E as (E & E'); [|pose proof (lenN_bytes_of o n v); pose proof (lenN_bytes_of o n v'); unfold lenN in *; lia]. split; [|exact E'].
  apply (f_equal (val_of o)) in E. rewrite !val_bytes in E. pose proof (mod_pow (N.of_nat n) v B) as X. pose proof (mod_pow (N.of_nat n) v' B') as X'. rewrite Nat2N.id in *. congruence.
Qed.
Lemma numbers_apart o ty vs : Forall (number_ok ty) vs -> forall vs' r r', Forall (number_ok ty) vs' -> lenN vs = lenN vs' -> numbers o ty vs ++ r = numbers o ty vs' ++ r' -> vs = vs' /\ r = r'.
Proof.
  induction 1 as [|v vs V F IH]; intros [|v' vs'] r r' F' L E; [auto|rewrite lenN_cons in L; change (lenN []) with 0 in L; lia|rewrite lenN_cons in L; change (lenN []) with 0 in L; lia|].
  rewrite !lenN_cons in L. unfold numbers in E. cbn [flat_map] in E. rewrite <- !app_assoc in E. pose proof (Forall_inv F') as V'. apply Forall_inv_tail in F'.
  apply bytes_apart in E as (-> & E); [|rewrite N2Nat.id; apply V|rewrite N2Nat.id; apply V']. destruct (IH vs' r r' F' ltac:(lia) E) as (-> & ->). auto.
Qed.
Lemma text_apart l : text l -> forall l' r r', text l' -> l ++ 0 :: r = l' ++ 0 :: r' -> l = l' /\ r = r'.
Proof.
  induction 1 as [|c l C F IH]; intros [|c' l'] r r' F' E; cbn [app] in E.
  - injection E as ->. auto.
  - injection E as <- _. apply Forall_inv in F'. lia.
  - injection E as -> _. lia.
  - injection E as <- E. apply Forall_inv_tail in F'. destruct (IH l' r r' F' E) as (-> & ->). auto.
Qed.
Lemma datum_apart o c d d' r r' : datum_ok c d -> datum_ok c d' -> datum_bytes o c d ++ r = datum_bytes o c d' ++ r' -> d = d' /\ r = r'.
Proof.
  intros D D' E. destruct c as [ty [|n|w]|mx|w], d as [v|vs|l]; cbn [datum_ok] in D; try contradiction; destruct d' as [v'|vs'|l']; cbn [datum_ok] in D'; try contradiction; cbn [datum_bytes] in E.
  - apply bytes_apart in E as (-> & ->); auto; rewrite N2Nat.id; [apply D|apply D'].
  - apply numbers_apart in E as (-> & ->); try tauto. destruct D, D'. lia.
  - rewrite <- !app_assoc in E. destruct D as (B & _ & D), D' as (B' & _ & D'). apply bytes_apart in E as (L & E); [|rewrite N2Nat.id; assumption|rewrite N2Nat.id; assumption].
    apply numbers_apart in E as (-> & ->); auto.
  - rewrite <- !app_assoc in E. apply text_apart in E as (-> & ->); tauto.
  - rewrite <- !app_assoc in E. destruct D as (_ & B), D' as (_ & B'). apply bytes_apart in E as (L & E); [|rewrite N2Nat.id; assumption|rewrite N2Nat.id; assumption].
    apply app_inj_len in E as (-> & ->); [auto|]. unfold lenN in L. lia.
Qed.

Definition apart (m : member) : Prop := forall o d d' r r', tree_ok m d -> tree_ok m d' ->
  fst (member_bytes m d o) ++ r = fst (member_bytes m d' o) ++ r' -> d = d' /\ r = r'.
Lemma members_apart_of b : Forall apart b -> forall o ds ds' r r', every2 tree_ok b ds -> every2 tree_ok b ds' ->
  fst (members_bytes b ds o) ++ r = fst (members_bytes b ds' o) ++ r' -> ds = ds' /\ r = r'.
Proof.
  induction 1 as [|a b A F IH]; intros o [|d ds] [|d' ds'] r r' K K' E; cbn [every2] in K, K'; try contradiction; [auto|].
  destruct K as (K & KS), K' as (K' & KS'). rewrite !members_cons in E. cbn [fst] in E. rewrite <- !app_assoc in E. apply A in E as (-> & E); auto. apply IH in E as (-> & ->); auto.
Qed.
Lemma groups_apart_of b : Forall apart b -> forall gs gs' o r r', lenN gs = lenN gs' -> every (fun g => every2 tree_ok b g) gs -> every (fun g => every2 tree_ok b g) gs' ->
  fst (groups_bytes b gs o) ++ r = fst (groups_bytes b gs' o) ++ r' -> gs = gs' /\ r = r'.
Proof.
  intros F. induction gs as [|g gs IH]; intros [|g' gs'] o r r' L K K' E; [auto|rewrite lenN_cons in L; change (lenN []) with 0 in L; lia|rewrite lenN_cons in L; change (lenN []) with 0 in L; lia|].
  rewrite !lenN_cons in L. cbn [every] in K, K'. destruct K as (K & KS), K' as (K' & KS'). rewrite !groups_cons in E. cbn [fst] in E. rewrite <- !app_assoc in E.
  apply members_apart_of in E as (-> & E); auto. apply IH in E as (-> & ->); auto. lia.
Qed.
Lemma extent_apart o x c c' r r' : extent_ok x c -> extent_ok x c' -> extent_bytes o x c ++ r = extent_bytes o x c' ++ r' -> c = c' /\ r = r'.
Proof.
  intros K K' E. destruct x; cbn [extent_ok extent_bytes app] in *; [split; [congruence|exact E]|split; [lia|exact E]|].
  apply bytes_apart in E; auto; rewrite N2Nat.id; tauto.
Qed.
Lemma member_apart m : apart m.
Proof.
  induction m as [f|os x n b IH] using member_induction; intros o [d|gs] [d'|gs'] r r' K K' E; cbn [tree_ok] in K, K'; try contradiction.
  - rewrite !flat_bytes in E. cbn [fst] in E. apply datum_apart in E as (-> & ->); auto.
  - rewrite !nest_bytes in E. cbn [fst] in E. rewrite <- !app_assoc in E. destruct K as (X & K), K' as (X' & K'). apply extent_apart in E as (L & E); auto.
    apply groups_apart_of in E as (-> & ->); auto.
Qed.
Lemma members_apart b o ds ds' r r' : every2 tree_ok b ds -> every2 tree_ok b ds' ->
  fst (members_bytes b ds o) ++ r = fst (members_bytes b ds' o) ++ r' -> ds = ds' /\ r = r'.
Proof. apply members_apart_of. apply Forall_forall. intros m _. apply member_apart. Qed.

(** ** Completing *)
Definition zero_datum (c : content) : datum :=
  match c with
  | Scalar _ One => Value 0
  | Scalar _ (Fixed n) => Values (repeat 0 (N.to_nat n))
  | Scalar _ (Counted _) => Values []
  | _ => Characters []
  end.
Definition copies {A} (x : extent) (a : A) : list A := match x with One => [a] | Fixed n => repeat a (N.to_nat n) | Counted _ => [] end.
Fixpoint zero (m : member) : tree := match m with Flat f => Datum (zero_datum (f_content f)) | Nest _ x _ b => Groups (copies x (map zero b)) end.

Lemma number_zero ty : number_ok ty 0.
Proof. split; [apply N.neq_0_lt_0, N.pow_nonzero; lia|lia]. Qed.
Lemma numbers_zero ty n : Forall (number_ok ty) (repeat 0 n).
Proof. apply Forall_forall. intros v I. apply repeat_spec in I. subst. apply number_zero. Qed.
Lemma lenN_repeat {A} (a : A) n : lenN (repeat a n) = N.of_nat n.
Proof. unfold lenN. now rewrite repeat_length. Qed.
Lemma pow_pos w : 0 < 2 ^ (8 * w).
Proof. apply N.neq_0_lt_0, N.pow_nonzero. lia. Qed.
Lemma zero_datum_ok names f : definite names (Flat f) -> datum_ok (f_content f) (zero_datum (f_content f)).
Proof.
  cbn [definite]. destruct (f_content f) as [ty [|n|w]|mx|w]; cbn [bounded zero_datum datum_ok]; intros D; try easy.
  - apply number_zero.
  - rewrite lenN_repeat, N2Nat.id. split; [reflexivity|]. split; [tauto|]. apply numbers_zero.
  - change (lenN []) with 0. pose proof (pow_pos w). split; [lia|]. split; [lia|constructor].
  - change (lenN []) with 0. pose proof (pow_pos w). split; [constructor|lia].
Qed.
Lemma every_repeat {A} (P : A -> Prop) a n : P a -> every P (repeat a n).
Proof. intros K. induction n; cbn [repeat every]; auto. Qed.
Lemma zeros_ok_of names b : Forall (fun m => definite names m -> tree_ok m (zero m)) b -> every (definite names) b -> every2 tree_ok b (map zero b).
Proof. induction 1 as [|a b A F IH]; cbn [map every every2]; [auto|]. intros (D & DS). auto. Qed.
Lemma copies_ok {A} x (a : A) : bounded x -> extent_ok x (lenN (copies x a)).
Proof. destruct x; cbn [bounded extent_ok copies]; intros B; [reflexivity|rewrite lenN_repeat, N2Nat.id; auto|]. change (lenN []) with 0. pose proof (pow_pos w). lia. Qed.
Lemma zero_ok names m : definite names m -> tree_ok m (zero m).
Proof.
  induction m as [f|os x n b IH] using member_induction; intros D.
  - eapply zero_datum_ok; eauto.
  - cbn [definite] in D. destruct D as (B & _ & D). cbn [zero tree_ok]. split; [now apply copies_ok|]. pose proof (zeros_ok_of _ _ IH D) as Z.
    destruct x; cbn [copies every]; auto. now apply every_repeat.
Qed.
Lemma zeros_ok names b : every (definite names) b -> every2 tree_ok b (map zero b).
Proof. apply zeros_ok_of. apply Forall_forall. intros m _. apply zero_ok. Qed.

(** Bytes of a number, some given *)
Lemma fill_bytes o w old : wf_bytes old -> lenN old < w -> exists v more, more <> [] /\ v < 2 ^ (8 * w) /\ old ++ more = bytes_of o (N.to_nat w) v /\ (old = [] -> v = 0).
Proof.
  intros W L. destruct old as [|c old].
  { exists 0, (bytes_of o (N.to_nat w) 0). split; [|split; [apply pow_pos|auto]]. intros E. apply (f_equal lenN) in E. rewrite lenN_bytes_of in E. change (lenN []) with 0 in *. lia. }
  set (l := c :: old) in *. set (more := repeat 0 (N.to_nat (w - lenN l))). exists (val_of o (l ++ more)), more.
  assert (WM : wf_bytes (l ++ more)) by (apply wf_app; [exact W|]; apply Forall_forall; intros v I; apply repeat_spec in I; subst; lia).
  assert (LL : lenN (l ++ more) = w) by (rewrite lenN_app; unfold more; rewrite lenN_repeat; lia).
  split; [unfold more; destruct (N.to_nat (w - lenN l)) eqn:E; [lia|discriminate]|]. split; [|split; [|unfold l; discriminate]].
  - pose proof (val_of_bound o _ WM) as B. rewrite LL in B. change 256 with (2 ^ 8) in B. now rewrite <- N.pow_mul_r in B.
  - replace (N.to_nat w) with (length (l ++ more)) by (unfold lenN in LL; lia). symmetry. now apply bytes_val.
Qed.
Lemma fill_number o ty old : 0x10 <= ty <= 0x1A -> wf_bytes old -> lenN old < width ty -> exists v more, more <> [] /\ number_ok ty v /\ old ++ more = bytes_of o (N.to_nat (width ty)) v.
Proof.
  intros T W L. destruct (fill_bytes o (width ty) old W L) as (v & more & NE & B & E & Z). exists v, more. split; [exact NE|]. split; [|exact E]. split; [exact B|].
  intros ->. change (width 26) with 1 in L. rewrite Z; [lia|]. destruct old; [reflexivity|]. rewrite lenN_cons in L. lia.
Qed.
