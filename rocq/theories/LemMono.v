(** More fuel never changes what the compiler answers. *)
From Coq Require Import Strings.String Lia.
From Verif Require Import Base ModelFloat ModelVM ModelImage ModelText ModelNames ModelParse ModelSchema.
Local Open Scope nat_scope.

(** [m1] gives up, or does what [m2] does *)
Definition agree {A} (m1 m2 : par A) : Prop := forall p, m1 p = PFuel \/ m1 p = m2 p.
Lemma agree_refl {A} (m : par A) : agree m m.
Proof. intros p. now right. Qed.
Lemma agree_fuel {A} (m : par A) : agree no_fuel m.
Proof. intros p. now left. Qed.
Lemma agree_bind {A B} (m1 m2 : par A) (k1 k2 : A -> par B) : agree m1 m2 -> (forall a, agree (k1 a) (k2 a)) ->
  agree (pbind m1 k1) (pbind m2 k2).
Proof.
  intros M K p. unfold pbind. destruct (M p) as [-> | ->]; [now left|]. destruct (m2 p); auto. apply K.
Qed.
Lemma agree_when b m1 m2 : agree m1 m2 -> agree (when b m1) (when b m2).
Proof. intros M. destruct b; [exact M|apply agree_refl]. Qed.

Ltac mono1 := lazymatch goal with
  | |- agree ?a ?a => apply agree_refl
  | |- agree no_fuel _ => apply agree_fuel
  | |- agree (pbind _ _) (pbind _ _) => apply agree_bind; [|intro]
  | |- agree (when _ _) (when _ _) => apply agree_when
  | |- agree (match ?x with _ => _ end) _ => destruct x
  | |- agree (let _ := _ in _) _ => cbv zeta
  | |- agree _ _ => match goal with H : _ |- _ => simple apply H; lia end
  end.
Ltac mono := repeat mono1.


Ltac start f IH := induction f as [|f IH]; intros [|g] L; intros; try apply agree_fuel; [lia|].
Lemma path_mono f : forall g, f <= g -> forall n, agree (path_loop f n) (path_loop g n).
Proof. start f IH. cbn [path_loop]. mono. Qed.
Lemma load_mono f g n : f <= g -> agree (load_name f n) (load_name g n).
Proof. intros L. pose proof path_mono as H. unfold load_name. mono. Qed.
Lemma prec_mono E f : forall g, f <= g ->
  (forall n, agree (parse_precedence E f n) (parse_precedence E g n)) /\
  (forall n t, agree (infix_loop E f n t) (infix_loop E g n t)).
Proof.
  induction f as [|f IH]; intros [|g] L; try lia; (split; intros; [|]); try apply agree_fuel.
  - pose proof load_mono as LM. destruct (IH g) as (P & I); [lia|]. cbn [parse_precedence]. mono.
  - destruct (IH g) as (P & I); [lia|]. cbn [infix_loop]. mono.
Qed.
Lemma expr_mono E f g : f <= g -> agree (parse_expression E f) (parse_expression E g).
Proof. intros L. now apply prec_mono. Qed.

Lemma poly_mono E f : forall g, f <= g -> forall l, agree (poly_loop E f l) (poly_loop E g l).
Proof. start f IH. cbn [poly_loop]. mono. Qed.
Lemma spline_mono E f : forall g, f <= g -> forall l, agree (spline_loop E f l) (spline_loop E g l).
Proof. start f IH. cbn [spline_loop]. mono. Qed.
Lemma skip_mono f : forall g, f <= g -> agree (skip_to_paren f) (skip_to_paren g).
Proof. start f IH. cbn [skip_to_paren]. mono. Qed.
Lemma args_mono E f g t d : f <= g -> agree (deco_args E f t d) (deco_args E g t d).
Proof.
  intros L. pose proof (poly_mono E) as H1. pose proof (spline_mono E) as H2. pose proof skip_mono as H3. pose proof (expr_mono E) as H4.
  unfold deco_args. mono.
Qed.
Lemma decorator_mono E f g d : f <= g -> agree (decorator E f d) (decorator E g d).
Proof.
  intros L. pose proof (args_mono E) as H1. pose proof skip_mono as H3. unfold decorator. mono.
Qed.
Lemma decorators_mono E f : forall g, f <= g -> forall d, agree (decorators E f d) (decorators E g d).
Proof. start f IH. pose proof (decorator_mono E) as H. cbn [decorators]. mono. Qed.
Lemma docs_mono f : forall g, f <= g -> agree (skip_docs f) (skip_docs g).
Proof. start f IH. cbn [skip_docs]. mono. Qed.

Lemma stmt_mono E f : forall g, f <= g ->
  agree (parse_field E f) (parse_field E g) /\ agree (parse_if E f) (parse_if E g) /\
  agree (parse_block E f) (parse_block E g) /\ agree (block_loop E f) (block_loop E g) /\
  forall l c j d, agree (case_loop E f l c j d) (case_loop E g l c j d).
Proof.
  induction f as [|f IH]; intros [|g] L; try lia; (split; [|split; [|split; [|split]]]; intros); try apply agree_fuel;
    destruct (IH g) as (A & B & C & D & F); try lia.
  - pose proof docs_mono as H1. pose proof (decorators_mono E) as H2. cbn [parse_field]. mono.
  - pose proof (expr_mono E) as H1. cbn [parse_if]. mono.
  - cbn [parse_block]. mono.
  - cbn [block_loop]. mono.
  - cbn [case_loop]. mono.
Qed.
Lemma enum_loop_mono f : forall g, f <= g -> forall n v x, agree (enum_loop f n v x) (enum_loop g n v x).
Proof. start f IH. cbn [enum_loop]. mono. Qed.
Lemma enum_mono f g : f <= g -> agree (parse_enum f) (parse_enum g).
Proof. intros L. pose proof enum_loop_mono as H. unfold parse_enum. mono. Qed.
Lemma struct_mono E f g : f <= g -> agree (parse_struct E f) (parse_struct E g).
Proof. intros L. destruct (stmt_mono E f g L) as (_ & _ & H & _). unfold parse_struct. mono. Qed.
Lemma packet_mono E f g : f <= g -> agree (parse_packet E f) (parse_packet E g).
Proof. intros L. destruct (stmt_mono E f g L) as (_ & _ & H & _). unfold parse_packet. mono. Qed.
Lemma top_mono E f : forall g, f <= g ->
  agree (top_level E f) (top_level E g) /\ agree (top_decorators E f) (top_decorators E g) /\ agree (parse_import E f) (parse_import E g).
Proof.
  induction f as [|f IH]; intros [|g] L; try lia; (split; [|split]); try apply agree_fuel;
    destruct (IH g) as (A & B & C); try lia.
  - pose proof (struct_mono E) as H1. pose proof enum_mono as H2. pose proof (packet_mono E) as H3. cbn [top_level]. mono.
  - pose proof skip_mono as H1. cbn [top_decorators]. mono.
  - cbn [parse_import]. mono.
Qed.

(** The answer does not depend on the fuel *)
Lemma compile_mono E f g path : f <= g -> compile_file E f path <> CFuel -> compile_file E g path = compile_file E f path.
Proof.
  intros L. unfold compile_file. cbv zeta. destruct (e_read E _) as [src|]; [|reflexivity].
  unfold parse_file. destruct (lex src) as [ts|]; [|intros X; now destruct X].
  pose proof (agree_bind advance advance _ _ (agree_refl _) (fun _ => proj1 (top_mono E f g L)) (parser0 (e_canon E path) ts)) as [-> | ->];
    [intros X; now destruct X|reflexivity].
Qed.
