(** Several steps of a run, and the code of compiled packets. *)
From Coq Require Import ZifyBool ZifyNat ZifyN.
From Verif Require Import Base SpecBytes ModelWord ModelFloat ModelTrans ModelVM SpecVM SpecParse SpecNames SpecPacket SpecFlow
  LemBase LemAct LemInstr LemField LemCheck LemFlow LemImage.
Ltac Zify.zify_post_hook ::= Z.div_mod_to_equations.

(** ** Several steps *)
Section Steps.
  Context {H : Type} (host : H -> request -> H * reply) (lm : libm) (bc : list N).
  (** None of them writes a constant (0x41), the one instruction that changes the packet when decoding, or makes the next field
      optional (0x4A) *)
  Inductive steps : nat -> st -> H -> st -> H -> list event -> Prop :=
  | steps_none s h : steps 0 s h s h []
  | steps_more n s h s1 h1 t1 s2 h2 t2 : ip s < lenN bc -> opcode_at bc s <> 0x41 /\ opcode_at bc s <> 0x4A -> interp host (step lm bc s) h = (SCont s1, h1, t1) ->
      steps n s1 h1 s2 h2 t2 -> steps (S n) s h s2 h2 (t1 ++ t2).
  Lemma steps_one s h s1 h1 t1 : ip s < lenN bc -> opcode_at bc s <> 0x41 /\ opcode_at bc s <> 0x4A -> interp host (step lm bc s) h = (SCont s1, h1, t1) -> steps 1 s h s1 h1 t1.
  Proof. intros L O E. rewrite <- (app_nil_r t1). eapply steps_more; eauto. constructor. Qed.
  Lemma steps_trans n m s h s1 h1 t1 s2 h2 t2 : steps n s h s1 h1 t1 -> steps m s1 h1 s2 h2 t2 -> steps (n + m) s h s2 h2 (t1 ++ t2).
  Proof. intros A B. induction A; [exact B|]. cbn [Nat.add]. rewrite <- app_assoc. eapply steps_more; eauto. Qed.
  Lemma steps_run n s h s1 h1 t1 : steps n s h s1 h1 t1 -> lenN bc <= ip s1 -> forall fuel, (n < fuel)%nat ->
    run host lm bc fuel s h = (Done EOk s1, h1, t1).
  Proof.
    intros A L. induction A as [s h|n s h s1 h1 t1 s2 h2 t2 I O E A IH]; intros fuel F; (destruct fuel as [|fuel]; [lia|]); cbn [run].
    - destruct (N.leb_spec (lenN bc) (ip s)); [reflexivity|lia].
    - destruct (N.leb_spec (lenN bc) (ip s)); [lia|]. rewrite E, IH by (auto; lia). reflexivity.
  Qed.
End Steps.

(** ** One field *)
Definition ready (s : st) (m : mode) (o : endian) (q : N) : Prop := md s = m /\ tr s = TNone /\ boff s = 0 /\ en s = o /\ ip s = q.
Lemma byte_pos0 s : boff s = 0 -> byte_pos s = cur s.
Proof. unfold byte_pos, position. intros ->. lia. Qed.
Lemma put_front a b l : lenN l <= lenN b -> put (a ++ b) (lenN a) l = a ++ l ++ skipn (N.to_nat (lenN l)) b.
Proof.
  intros L. unfold put. f_equal; [|f_equal].
  - unfold lenN. rewrite Nat2N.id, firstn_app, firstn_all, Nat.sub_diag. cbn. now rewrite app_nil_r.
  - rewrite skipn_app. unfold lenN. rewrite skipn_all2 by lia. cbn [app]. f_equal. lia.
Qed.
Lemma sub_front a l b : sub (a ++ l ++ b) (lenN a) (lenN l) = l.
Proof.
  unfold sub, lenN. rewrite !Nat2N.id, skipn_app, skipn_all, Nat.sub_diag. cbn [app skipn]. rewrite firstn_app, firstn_all, Nat.sub_diag. cbn. apply app_nil_r.
Qed.

Section Run.
  Context {H : Type} (host : H -> request -> H * reply) (lm : libm) (bc : list N) (WB : wf_bytes bc).

  Lemma placed_key q op k l : placed bc q (op :: le_bytes 2 k ++ l) -> k < 65536 -> forall s, ip s = q -> opcode_at bc s = op /\ key_at bc s = k /\ ip s + 3 <= lenN bc.
  Proof.
    intros P K s E. pose proof (placed_le _ _ _ P) as L. apply placed_one in P as (HO & P). apply placed_app in P as (P & _).
    rewrite lenN_cons, lenN_app in L. change (lenN (le_bytes 2 k)) with 2 in L.
    split; [unfold opcode_at; now rewrite E|]. split; [|lia]. unfold key_at, operand_at. rewrite E. apply placed_val2; auto.
  Qed.

  Lemma code_app a b : code (a ++ b) = code a ++ code b.
  Proof. apply flat_map_app. Qed.
End Run.

Lemma last_orders os : last (map (fun b : bool => if b then BE else LE) os) LE = if last os false then BE else LE.
Proof. induction os as [|b os IH]; [reflexivity|]. destruct os as [|c os]; [destruct b; reflexivity|]. cbn [map last] in *. exact IH. Qed.
Lemma instr_wf i : opcode i < 256 -> wf_bytes (args i) -> wf_bytes (instr_bytes i).
Proof.
  intros O A. constructor; [exact O|]. apply wf_app; [|exact A]. induction (refs i) as [|k l IH]; [constructor|]. cbn [flat_map].
  apply wf_app; [apply (wf_bytes_of LE 2)|exact IH].
Qed.
Lemma code_wf p : Forall (fun i => opcode i < 256 /\ wf_bytes (args i)) p -> wf_bytes (code p).
Proof. induction 1 as [|i p (A & B) F IH]; [constructor|]. cbn [code flat_map]. apply wf_app; [now apply instr_wf|exact IH]. Qed.
Lemma packet_code id k : code (packet_instrs id k) =
  code (map (fun b : bool => ins (if b then 0x02 else 0x01) [] []) (pk_orders k)) ++ code [ins 0x07 [id (pk_name k)] []] ++ code (flat_map (field_instrs id) (pk_fields k)).
Proof. unfold packet_instrs. rewrite code_app. f_equal. Qed.
Lemma orders_code_len os : lenN (code (map (fun b : bool => ins (if b then 0x02 else 0x01) [] []) os)) = lenN os.
Proof. induction os as [|b os IH]; [reflexivity|]. cbn [map]. change (code (?a :: ?l)) with (instr_bytes a ++ code l). rewrite lenN_app, IH, lenN_cons. destruct b; change (lenN (instr_bytes _)) with 1; lia. Qed.
