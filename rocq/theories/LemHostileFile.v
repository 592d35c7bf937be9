(** Compiled packets with bit fields and checksums, run with any packet and any host. *)
From Coq Require Import ZifyBool ZifyNat ZifyN.
From Verif Require Import Base SpecBytes LemBase ModelWord ModelFloat ModelVM SpecVM ModelParse ModelSchema ModelImage SpecImage LemImage SpecParse LemParse SpecNames SpecPacket LemPacket SpecMessage LemMessage LemSend LemAccept SpecNest LemNest LemNestFile LemNestWire LemNestRun
  SpecParts LemParts LemPartsFile LemPartsWire LemPartsRun LemInspectFile LemHostile SpecHostile.
Ltac Zify.zify_post_hook ::= Z.div_mod_to_equations.
Local Open Scope N_scope.

Notation ops P := (Forall (fun i => P (opcode i))).
Definition tame (o : N) : Prop := In o tame_ops.
Lemma marked_ops (P : N -> Prop) big l : P 0x01 -> P 0x02 -> ops P l -> ops P (marked big l).
Proof. intros A B K. destruct big; [|exact K]. cbn [marked]. repeat (apply Forall_app; split); auto. Qed.
Lemma easy_tame l : easy l -> ops tame l.
Proof. intros E. eapply Forall_impl; [|exact E]. intros i I. cbn [In easy_ops tame tame_ops] in *. unfold tame. cbn [In tame_ops]. tauto. Qed.
Lemma part_tame id p : LemPartsRun.part_plain id p -> ops tame (part_instrs id p).
Proof.
  destruct p as [m|l|ds n|ds ty n]; cbn [LemPartsRun.part_plain part_instrs]; intros W.
  - apply easy_tame. now apply member_easy.
  - apply easy_tame. apply Forall_forall. intros i I. apply in_map_iff in I as (b & <- & _). destruct b as [[] w n|w|b]; cbn [bit_instr ins opcode]; member_of.
  - assert (K : tame (opcode (check_instr (crc_of ds)))) by (unfold tame, check_instr; cbn [ins opcode]; destruct (k_wide _) as [[]|]; cbn [In tame_ops]; tauto).
    apply (marked_ops tame); [unfold tame; cbn [In tame_ops]; tauto|unfold tame; cbn [In tame_ops]; tauto|]. constructor; [exact K|constructor].
  - apply easy_tame. repeat (apply Forall_app; split).
    + apply Forall_forall. intros i I. apply in_map_iff in I as (b & <- & _). cbn [ins opcode]. member_of.
    + destruct (u_conv (num_of ds)); cbn [conv_instrs]; [constructor|..]; (constructor; [cbn [ins opcode]; member_of|constructor]).
    + apply marked_easy. constructor; [|constructor]. cbn [ins opcode In easy_ops]. lia.
Qed.
(** Every instruction of a packet is one in front, the packet's name, or of a part *)
Lemma frame_each (P : instr -> Prop) id k : (forall b : bool, P (ins (if b then 0x02 else 0x01) [] [])) -> P (ins 0x07 [id (fr_name k)] []) ->
  (forall p, In p (fr_parts k) -> Forall P (part_instrs id p)) -> forall i, In i (frame_instrs id k) -> P i.
Proof.
  intros A B D i I. unfold frame_instrs in I. apply in_app_or in I as [I|[<-|I]].
  - apply in_map_iff in I as (b & <- & _). apply A.
  - exact B.
  - apply in_flat_map in I as (p & I & J). exact (proj1 (Forall_forall _ _) (D p I) i J).
Qed.
Lemma frame_tame id k : Forall (LemPartsRun.part_plain id) (fr_parts k) -> forall i, In i (frame_instrs id k) -> In (opcode i) tame_ops.
Proof.
  intros PL. apply (frame_each (fun i => In (opcode i) tame_ops)).
  - intros []; cbn [ins opcode In tame_ops]; tauto.
  - cbn [ins opcode In tame_ops]; tauto.
  - intros p I. apply part_tame. exact (proj1 (Forall_forall _ _) PL p I).
Qed.

(** ** Packets without padding, without arrays *)
Definition no_pad (o : N) : Prop := o <> 0x23.
Definition no_array (o : N) : Prop := array_class (classify o) = false.
Lemma type_ops ty : 0x10 <= ty <= 0x1A -> no_pad ty /\ no_array ty.
Proof.
  intros T. split; [unfold no_pad; lia|]. unfold no_array. assert (O : ty = 0x10 \/ ty = 0x11 \/ ty = 0x12 \/ ty = 0x13 \/ ty = 0x14 \/ ty = 0x15 \/ ty = 0x16 \/ ty = 0x17 \/ ty = 0x18 \/ ty = 0x19 \/ ty = 0x1A) by lia.
  repeat (destruct O as [-> |O]; [reflexivity|]). now rewrite O.
Qed.
Lemma content_no_pad c k : content_wf c -> ops no_pad (content_instrs c k).
Proof.
  intros W. destruct c as [ty [|m|w]|m|w]; cbn [content_instrs content_wf] in *; repeat apply Forall_cons; try apply Forall_nil; cbn [ins opcode]; unfold no_pad, array_op, string_op; try lia; try (destruct w as [|[[]|[]|]]; discriminate).
Qed.
Lemma member_no_pad id m : forall pre, member_plain m -> ops no_pad (member_instrs id pre m).
Proof.
  induction m as [f|os x n b IH] using member_induction; intros pre W; cbn [member_instrs member_plain] in *; apply marked_ops; try discriminate.
  - now apply content_no_pad.
  - destruct W as (_ & W). apply every_forall in W.
    assert (G : ops no_pad ([ins 0x03 [id (pre ++ n)] []] ++ flat_map (member_instrs id (inside pre n)) b ++ [ins 0x04 [] []])).
    { repeat (apply Forall_app; split); try (constructor; [cbn [ins opcode]; discriminate|constructor]).
      clear - IH W. induction IH as [|a l X F IHl]; [constructor|]. inversion W; subst. cbn [flat_map]. apply Forall_app. split; [now apply X|now apply IHl]. }
    destruct x as [|c|w]; [exact G| |]; cbn [repeated]; (apply Forall_app; split; [|apply Forall_app; split; [exact G|]]); (constructor; [|constructor]); cbn [ins opcode]; unfold no_pad, array_op; try discriminate.
    destruct w as [|[[]|[]|]]; discriminate.
Qed.
Lemma member_no_array id m : forall pre, member_plain m -> arrayless m -> ops no_array (member_instrs id pre m).
Proof.
  induction m as [f|os x n b IH] using member_induction; intros pre W A; cbn [member_instrs member_plain arrayless] in *; apply marked_ops; try reflexivity.
  - destruct (f_content f) as [ty [|c|w]|c|w]; cbn [arrayless_content content_instrs content_wf] in *; try contradiction; repeat apply Forall_cons; try apply Forall_nil; cbn [ins opcode].
    + apply type_ops. tauto.
    + reflexivity.
    + unfold no_array, string_op. destruct w as [|[[]|[]|]]; reflexivity.
  - destruct W as (_ & W). destruct A as (-> & A). apply every_forall in W. apply every_forall in A. cbn [repeated].
    repeat (apply Forall_app; split); try (constructor; [reflexivity|constructor]).
    clear - IH W A. induction IH as [|a l X F IHl]; [constructor|]. inversion W; subst. inversion A; subst. cbn [flat_map]. apply Forall_app. split; [now apply X|now apply IHl].
Qed.
Lemma frame_no_pad id k : Forall (LemPartsRun.part_plain id) (fr_parts k) -> without_padding k -> forall i, In i (frame_instrs id k) -> opcode i <> 0x23.
Proof.
  intros PL NP. apply (frame_each (fun i => opcode i <> 0x23)); [intros []; discriminate|discriminate|]. intros p I. pose proof (proj1 (Forall_forall _ _) PL p I) as W.
  destruct p as [m|l|ds n|ds ty n]; cbn [LemPartsRun.part_plain part_instrs] in *.
  - now apply (member_no_pad id m []).
  - apply Forall_forall. intros i J. apply in_map_iff in J as (b & <- & J). destruct b as [[] w n|w|b]; cbn [bit_instr ins opcode]; try discriminate. exfalso. exact (NP l w I J).
  - assert (K : no_pad (opcode (check_instr (crc_of ds)))) by (unfold no_pad, check_instr; cbn [ins opcode]; destruct (k_wide _) as [[]|]; discriminate).
    apply (marked_ops no_pad); [discriminate|discriminate|]. constructor; [exact K|constructor].
  - repeat (apply Forall_app; split).
    + apply Forall_forall. intros i J. apply in_map_iff in J as (b & <- & _). discriminate.
    + destruct (u_conv (num_of ds)); cbn [conv_instrs]; [constructor|..]; (constructor; [discriminate|constructor]).
    + apply (marked_ops no_pad); [discriminate|discriminate|]. constructor; [|constructor]. cbn [ins opcode]. unfold no_pad. lia.
Qed.
Lemma frame_no_array id k : Forall (LemPartsRun.part_plain id) (fr_parts k) -> without_arrays k -> forall i, In i (frame_instrs id k) -> array_class (classify (opcode i)) = false.
Proof.
  intros PL NA. apply (frame_each (fun i => array_class (classify (opcode i)) = false)); [intros []; reflexivity|reflexivity|]. intros p I. pose proof (proj1 (Forall_forall _ _) PL p I) as W.
  destruct p as [m|l|ds n|ds ty n]; cbn [LemPartsRun.part_plain part_instrs] in *.
  - apply (member_no_array id m []); [exact W|now apply NA].
  - apply Forall_forall. intros i J. apply in_map_iff in J as (b & <- & J). destruct b as [[] w n|w|b]; reflexivity.
  - assert (K : no_array (opcode (check_instr (crc_of ds)))) by (unfold no_array, check_instr; cbn [ins opcode]; destruct (k_wide _) as [[]|]; reflexivity).
    apply (marked_ops no_array); [reflexivity|reflexivity|]. constructor; [exact K|constructor].
  - repeat (apply Forall_app; split).
    + apply Forall_forall. intros i J. apply in_map_iff in J as (b & <- & _). reflexivity.
    + destruct (u_conv (num_of ds)); cbn [conv_instrs]; [constructor|..]; (constructor; [reflexivity|constructor]).
    + apply (marked_ops no_array); [reflexivity|reflexivity|]. constructor; [|constructor]. cbn [ins opcode]. apply type_ops. lia.
Qed.

(** ** From the file *)
Lemma frame_safe E path k toks : holds_frame E path k toks ->
  Forall (fun n => lenN n <= 255) (frame_all k) -> lenN (frame_all k) <= 65535 -> 16 + table_bytes (frame_names k) < 2 ^ 32 -> without_arrays k \/ few_marks k ->
  exists im pr, (forall fuel, (length toks < fuel)%nat -> compile_file E fuel path = CImage im) /\ load_il im = Ok (Loaded pr) /\
    let bc := sub im (pr_bytecode pr) (pr_bytecode_len pr) in
    forall H (host : H -> request -> H * reply) lm m data h fuel o h' t, lenN bc < 2 ^ 62 -> wf_bytes data -> (m = Dec -> without_padding k) ->
    run host lm bc fuel (init m data) h = (o, h', t) ->
    (o <> Crash UData /\ o <> Crash UIl /\ o <> Crash UStack) /\ (forall rq r p l, In (rq, r) t -> rq_pl rq = PBuf p l -> p + lenN l <= lenN data).
Proof.
  intros HP LB LN TB AR. pose proof (frame_text _ _ _ _ HP) as TX. pose proof HP as HP'. destruct HP' as (src & ws & RD & LX & M & SR).
  destruct (compile_frame E k ws path src toks SR RD LX M TX LB ltac:(lia)) as (names & ND & IN & C).
  destruct (fewer_bytes names ND (frame_names k) ltac:(intros x I; now apply IN)) as (L & B).
  assert (LS : lenN (frame_names k) <= 65535) by (unfold frame_all in LN; rewrite !lenN_app in LN; lia).
  assert (TN : Forall text names).
  { apply Forall_forall. intros x I. apply (proj1 (Forall_forall _ _) TX). apply in_or_app. right. apply in_or_app. right. now apply IN. }
  assert (IB : small (index_of names) (lenN (frame_names k)) (frame_names k)).
  { intros n I. apply IN in I. pose proof (index_bound names n I). lia. }
  pose proof (frame_wf E path k toks names HP ltac:(lia) IN) as WF. destruct (frame_plain E path k toks _ HP LN IB) as (PL & _).
  set (is := frame_instrs (index_of names) k) in *. set (bc := SpecNames.code is) in *.
  exists (image names bc), (prog names bc). split; [exact C|]. split; [apply load_image; auto; lia|]. cbv zeta. rewrite prog_code by (auto; lia).
  intros H host lm m data h fuel o h' t BL WD NP R.
  eapply (never_leaves names is WF (frame_tame _ k PL)); try eassumption.
  - destruct AR as [NA|(FM & NM)]; [right; now apply frame_no_array|left]. intros i I J. apply in_app_or in J as [J|J]; [|exact (NM (index_of names) i I J)].
    pose proof (proj1 (Forall_forall _ _) WF i I) as (_ & _ & _ & _ & RF). apply in_flat_map in J as (r & J & K). pose proof (proj1 (Forall_forall _ _) RF r J) as (RL & _).
    cbn [le_bytes In] in K. destruct K as [K|[K|[]]]; lia.
  - apply code_wf. eapply Forall_impl; [|exact WF]. intros i (A & B' & _). auto.
  - intros ->. apply frame_no_pad; auto.
Qed.
