(** Concrete hosts and programs used in examples and witnesses, and a way to check by computation
    that a condition holds throughout a concrete run. *)
From Verif Require Import Base SpecBytes ModelFloat ModelVM SpecVM.

Definition lm0 : libm := {| lm_sin := fun _ => 0; lm_cos := fun _ => 0; lm_tan := fun _ => 0;
  lm_log := fun _ => 0; lm_pow := fun _ _ => 0 |}.

Definition say (v : N) : reply := {| r_ok := true; r_val := Some v; r_str := None; r_bytes := [] |}.
Definition say_str (l : list N) : reply := {| r_ok := true; r_val := None; r_str := Some l; r_bytes := [] |}.
Definition nod : reply := {| r_ok := true; r_val := None; r_str := None; r_bytes := [] |}.
Definition refuse : reply := {| r_ok := false; r_val := None; r_str := None; r_bytes := [] |}.

(** Accepts everything, stores nothing *)
Definition quiet : unit -> request -> unit * reply := fun _ _ => (tt, nod).
(** Always stores [v] *)
Definition always (v : N) : unit -> request -> unit * reply := fun _ _ => (tt, say v).
(** Gives the replies of a list, one per call, then accepts silently; never writes through pointers *)
Definition script : list reply -> request -> list reply * reply :=
  fun l _ => match l with
             | [] => ([], nod)
             | r :: l' => (l', {| r_ok := r_ok r; r_val := r_val r; r_str := r_str r; r_bytes := [] |})
             end.

Fixpoint checked {H} (host : H -> request -> H * reply) lm bc (fuel : nat) (s : st) (h : H) (p : st -> bool) : bool :=
  match fuel with
  | O => false
  | S f =>
    if lenN bc <=? ip s then true
    else p s &&
         match interp host (step lm bc s) h with
         | (SCont s', h', _) => checked host lm bc f s' h' p
         | _ => true
         end
  end.
Lemma checked_during {H} (host : H -> request -> H * reply) lm bc fuel s h p (P : st -> Prop) :
  checked host lm bc fuel s h p = true -> (forall s, p s = true -> P s) -> during host lm bc s h P.
Proof.
  intros HC HP s1 h1 R HI.
  assert (HE : exists f, checked host lm bc f s1 h1 p = true).
  { induction R; [eauto|]. destruct (IHR HC H0) as [f HF]. destruct f; cbn [checked] in HF; [discriminate|].
    destruct (N.leb_spec (lenN bc) (ip s')); [lia|]. rewrite H1 in HF. apply andb_prop in HF. destruct HF. eauto. }
  destruct HE as [f HF]. destruct f; cbn [checked] in HF; [discriminate|].
  destruct (N.leb_spec (lenN bc) (ip s1)); [lia|]. apply andb_prop in HF. destruct HF. auto.
Qed.

(** The states of a concrete run, in order *)
Fixpoint states {H} (host : H -> request -> H * reply) lm bc (fuel : nat) (s : st) (h : H) : option (list st) :=
  match fuel with
  | O => None
  | S f =>
    if lenN bc <=? ip s then Some [s]
    else match interp host (step lm bc s) h with
         | (SCont s', h', _) => match states host lm bc f s' h' with Some l => Some (s :: l) | None => None end
         | _ => Some [s]
         end
  end.
Lemma states_reach {H} (host : H -> request -> H * reply) lm bc fuel : forall s h l s1 h1,
  states host lm bc fuel s h = Some l -> reaches host lm bc s h s1 h1 ->
  exists f l0 l1, states host lm bc f s1 h1 = Some l1 /\ l = l0 ++ l1.
Proof.
  intros s h l s1 h1 HS R. induction R.
  - exists fuel, [], l. auto.
  - destruct (IHR HS) as (f & l0 & l1 & E1 & E2). destruct f; cbn [states] in E1; [discriminate|].
    destruct (N.leb_spec (lenN bc) (ip s')); [lia|]. rewrite H1 in E1.
    destruct (states host lm bc f s2 h2) as [l2|] eqn:E3; [|discriminate]. inversion E1; subst.
    exists f, (l0 ++ [s']), l2. rewrite <- app_assoc. auto.
Qed.
Lemma states_head {H} (host : H -> request -> H * reply) lm bc fuel s h l :
  states host lm bc fuel s h = Some l -> exists r, l = s :: r.
Proof.
  destruct fuel; cbn [states]; [discriminate|]. destruct (_ <=? _); [inversion 1; eauto|].
  destruct (interp _ _ _) as [[[s'|e s'|u] h'] t]; try (inversion 1; eauto; fail).
  destruct (states _ _ _ _ _ _); inversion 1; eauto.
Qed.
Lemma states_in {H} (host : H -> request -> H * reply) lm bc fuel : forall s h l s1,
  states host lm bc fuel s h = Some l -> In s1 l -> exists h1, reaches host lm bc s h s1 h1.
Proof.
  induction fuel; intros s h l s1; cbn [states]; [discriminate|].
  destruct (N.leb_spec (lenN bc) (ip s)) as [_|HI].
  { intros X [->|[]] || (intros X; inversion X; subst; intros [->|[]]). exists h. constructor. }
  destruct (interp host (step lm bc s) h) as [[[s'|e s'|u] h'] t] eqn:EI.
  2,3: intros X; inversion X; subst; intros [->|[]]; exists h; constructor.
  destruct (states host lm bc fuel s' h') as [l'|] eqn:ES; [|discriminate].
  intros X; inversion X; subst; intros [->|HN]; [exists h; constructor|].
  destruct (IHfuel _ _ _ _ ES HN) as [h1 R]. exists h1.
  clear - R HI EI. induction R; [eapply reach_step; [constructor|exact HI|exact EI]|].
  eapply reach_step; [apply IHR; exact EI|exact H0|exact H1].
Qed.
(** A relation holds between every state of the run and every later one *)
Fixpoint ordered {A} (p : A -> A -> bool) (l : list A) : bool :=
  match l with [] => true | x :: r => forallb (p x) r && ordered p r end.
Lemma ordered_app {A} (p : A -> A -> bool) l : forall r, ordered p (l ++ r) = true -> ordered p r = true.
Proof. induction l; cbn; auto. intros r E. apply andb_prop in E. apply IHl. apply E. Qed.
Lemma states_ordered {H} (host : H -> request -> H * reply) lm bc fuel s h l p s1 h1 s2 h2 t s3 h3 :
  states host lm bc fuel s h = Some l -> ordered p l = true ->
  reaches host lm bc s h s1 h1 -> ip s1 < lenN bc -> interp host (step lm bc s1) h1 = (SCont s2, h2, t) ->
  reaches host lm bc s2 h2 s3 h3 -> p s1 s3 = true.
Proof.
  intros HS HO R HI X R'.
  destruct (states_reach _ _ _ _ _ _ _ _ _ HS R) as (f & l0 & l1 & E1 & ->).
  apply ordered_app in HO. destruct f; cbn [states] in E1; [discriminate|].
  destruct (N.leb_spec (lenN bc) (ip s1)); [lia|]. rewrite X in E1.
  destruct (states host lm bc f s2 h2) as [l2|] eqn:E2; [|discriminate]. inversion E1; subst.
  cbn [ordered] in HO. apply andb_prop in HO. destruct HO as [HO _]. rewrite forallb_forall in HO.
  destruct (states_reach _ _ _ _ _ _ _ _ _ E2 R') as (f' & l3 & l4 & E3 & ->).
  destruct (states_head _ _ _ _ _ _ _ E3) as (r & ->). apply HO. apply in_or_app. right. now left.
Qed.

(** ** A program using most kinds of fields
    [@optional]-free: two bit fields, padding, 16-bit field, string, fixed array of u8, CRC *)
Definition prog1 : list N :=
  [0x20; 0; 0; 3;             (* 3-bit field, key 0 *)
   0x21; 1; 0; 4;             (* signed 4-bit field, key 1 *)
   0x23; 1;                   (* 1 bit of padding *)
   0x02;                      (* big endian *)
   0x11; 2; 0;                (* u16, key 2 *)
   0x42; 0x11; 1; 0; 255; 255;  (* range check 1..65535 *)
   0x30; 3; 0; 8; 0;          (* NUL-terminated string, key 3, at most 8 *)
   0x35; 4; 0;                (* u8-prefixed array, key 4 *)
   0x11; 5; 0;                (*   of u16, key 5 *)
   0x38;
   0x61; 7; 0; 0; 0; 0; 0; 0; 0; 0x65; 0x10; (* computed u8 = 7 *)
   0x44; 0x21; 0x10; 255; 255; 0; 0; 0].     (* CRC-16 *)
Definition script1 : list reply :=
  [say 5; say (2 ^ 64 - 3); say 0x1234; say_str [72; 105]; say 2; say 10; say 20].
Definition out1 : list N := firstn 15 (match fst (fst (run script lm0 prog1 100 (init Enc (repeat 0 20)) script1)) with
  | Done _ s => buf s | _ => [] end).

(** Proof of a concrete statement by computation: conjunctions and existentials over results *)
Ltac compute_it := repeat match goal with |- _ /\ _ => split | |- exists _, _ => eexists end; (vm_compute; reflexivity).
