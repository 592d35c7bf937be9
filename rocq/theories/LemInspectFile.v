(** Compiled files through the inspector. *)
From Coq Require Import Strings.String ZifyBool ZifyNat ZifyN.
From Verif Require Import Base SpecBytes SpecVM ModelVM ModelImage SpecImage ModelText SpecText ModelNames ModelParse ModelSchema SpecParse LemBase LemStr LemText
  LemImage LemLex LemParse SpecNames LemNames SpecPacket LemPacket SpecMessage LemMessage LemAccept SpecNest LemNest LemNestFile LemNestWire LemNestRun SpecParts LemParts LemPartsFile LemPartsWire
  LemPartsRun ModelInspect SpecInspect LemInspect LemListing.
Local Open Scope N_scope.

(** Opcodes without any difficulty *)
Definition easy_ops : list N :=
  [0x01; 0x02; 0x03; 0x04; 0x07; 0x10; 0x11; 0x12; 0x13; 0x14; 0x15; 0x16; 0x17; 0x18; 0x19; 0x1A; 0x20; 0x21; 0x23; 0x24;
   0x30; 0x31; 0x32; 0x33; 0x34; 0x35; 0x36; 0x37; 0x38; 0x43; 0x45; 0x46; 0x47; 0x48; 0x4A].
Definition easy (l : list instr) : Prop := Forall (fun i => In (opcode i) easy_ops) l.
Lemma easy_reads rtl i : In (opcode i) easy_ops -> inspector_reads rtl i /\ says_all i.
Proof.
  intros I. unfold inspector_reads, says_all. cbn [In easy_ops] in I. destruct (opcode i) as [|o]; [exfalso; intuition discriminate|].
  assert (N1 : ~ In (N.pos o) [6; 34; 58; 83; 64; 75; 65; 66; 68; 73]) by (cbn [In]; intros J; clear -I J; intuition congruence).
  cbn [In] in *. split; [|intros E; exfalso; intuition]. split; [intuition|]. split; [intros [E|E]; exfalso; intuition|]. split; [intros E; exfalso; intuition|].
  split; [intros E; exfalso; intuition|]. intros _. split; [intuition|intros E; exfalso; intuition].
Qed.
Ltac member_of := cbn [In easy_ops]; tauto.
Lemma content_easy c k : content_wf c -> easy (content_instrs c k).
Proof.
  assert (A : forall w, In (array_op w) easy_ops) by (intros w; unfold array_op; destruct w as [|[[]|[]|]]; member_of).
  assert (B : forall w, In (string_op w) easy_ops) by (intros w; unfold string_op; destruct w as [|[[]|[]|]]; member_of).
  assert (D : forall ty, 0x10 <= ty <= 0x1A -> In ty easy_ops) by (intros ty T; cbn [In easy_ops]; lia).
  intros W. destruct c as [ty [|m|w]|m|w]; cbn [content_instrs content_wf] in *; repeat apply Forall_cons; try apply Forall_nil; cbn [ins opcode]; auto; try (apply D; tauto); member_of.
Qed.
Lemma marked_easy big l : easy l -> easy (marked big l).
Proof. intros B. destruct big; [|exact B]. cbn [marked]. repeat (apply Forall_app; split); auto; (constructor; [|constructor]); cbn [ins opcode]; member_of. Qed.
Lemma repeated_easy x k l : easy l -> easy (repeated x k l).
Proof.
  assert (A : forall w, In (array_op w) easy_ops) by (intros w; unfold array_op; destruct w as [|[[]|[]|]]; member_of).
  intros B. destruct x as [|n|w]; [exact B| |]; cbn [repeated]; repeat (apply Forall_app; split); auto; (constructor; [|constructor]); cbn [ins opcode]; auto; member_of.
Qed.
Lemma member_easy id m : forall pre, member_plain m -> easy (member_instrs id pre m).
Proof.
  induction m as [f|os x n b IH] using member_induction; intros pre W; cbn [member_instrs member_plain] in *; apply marked_easy.
  - now apply content_easy.
  - destruct W as (_ & W). apply every_forall in W. apply repeated_easy. repeat (apply Forall_app; split); try (constructor; [cbn [ins opcode]; member_of|constructor]).
    clear - IH W. induction IH as [|a l X F IHl]; [constructor|]. inversion W; subst. cbn [flat_map]. apply Forall_app. split; [now apply X|now apply IHl].
Qed.
Definition no_check (p : part) : Prop := match p with Check _ _ => False | _ => True end.
Lemma check_reads c : inspector_reads false (check_instr c) /\ says_all (check_instr c).
Proof.
  unfold inspector_reads, says_all, check_instr. cbn [ins opcode args]. destruct (k_wide c) as [[]|]; (split; [|discriminate]);
    (split; [cbn [In]; intuition discriminate|]; split; [intuition discriminate|]; split; [discriminate|]; split; discriminate).
Qed.
Lemma easy_forall rtl l : easy l -> Forall (fun i => inspector_reads rtl i /\ says_all i) l.
Proof. intros E. eapply Forall_impl; [|exact E]. intros i. apply easy_reads. Qed.
Lemma part_reads rtl id p : LemPartsRun.part_plain id p -> (rtl = true -> no_check p) -> Forall (fun i => inspector_reads rtl i /\ says_all i) (part_instrs id p).
Proof.
  destruct p as [m|l|ds n|ds ty n]; cbn [LemPartsRun.part_plain part_instrs no_check]; intros W K.
  - apply easy_forall. now apply member_easy.
  - apply easy_forall. apply Forall_forall. intros i I. apply in_map_iff in I as (b & <- & _). destruct b as [[] w n|w|b]; cbn [bit_instr ins opcode]; member_of.
  - destruct rtl; [destruct (K eq_refl)|]. 
    assert (E : easy [ins 0x02 [] []] /\ easy [ins 0x01 [] []]) by (split; (constructor; [cbn [ins opcode]; member_of|constructor])). destruct E as [E1 E2].
    apply (easy_forall false) in E1, E2. destruct (k_big (crc_of ds)); cbn [marked]; [apply Forall_app; split; [exact E1|]; apply Forall_app; split; [|exact E2]|];
      (constructor; [apply check_reads|constructor]).
  - apply easy_forall. repeat (apply Forall_app; split).
    + apply Forall_forall. intros i I. apply in_map_iff in I as (b & <- & _). cbn [ins opcode]. member_of.
    + destruct (u_conv (num_of ds)); cbn [conv_instrs]; [constructor|..]; (constructor; [cbn [ins opcode]; member_of|constructor]).
    + apply marked_easy. constructor; [|constructor]. cbn [ins opcode In easy_ops]. lia.
Qed.
Lemma frame_reads rtl id k : Forall (LemPartsRun.part_plain id) (fr_parts k) -> (rtl = true -> Forall no_check (fr_parts k)) ->
  Forall (fun i => inspector_reads rtl i /\ says_all i) (frame_instrs id k).
Proof.
  intros W K. unfold frame_instrs. apply Forall_app. split; [|constructor].
  - apply easy_forall. apply Forall_forall. intros i I. apply in_map_iff in I as ([] & <- & _); cbn [ins opcode]; member_of.
  - apply easy_reads. cbn [ins opcode]. member_of.
  - induction W as [|p l X F IH]; [constructor|]. cbn [flat_map]. apply Forall_app. split.
    + apply part_reads; [exact X|]. intros E. exact (Forall_inv (K E)).
    + apply IH. intros E. exact (Forall_inv_tail (K E)).
Qed.
Lemma frame_wf E path k toks names : holds_frame E path k toks -> lenN names <= 65535 -> (forall s, In s names <-> In s (frame_names k)) ->
  Forall (well_formed names) (frame_instrs (index_of names) k).
Proof.
  intros (src & ws & _ & _ & _ & SR) LN IN.
  assert (SO : Forall sym_ok (frame_sym k)).
  { destruct SR as (sw & os & fw & SR & OR & FR & _). eapply frame_syms; [exact FR|]. intros s b I. apply (structs_read_wf [] _ sw SR) with (s := s); [intros ? ? []|exact I]. }
  rewrite <- frame_sym_ok. apply Forall_forall. intros i I. apply in_map_iff in I as (x & <- & I). pose proof (proj1 (Forall_forall _ _) SO x I) as O.
  assert (Q : Forall (fun n => In n names) (snd (fst x))) by (apply Forall_forall; intros n J; apply IN, frame_refs; apply in_flat_map; eauto).
  destruct x as [[op ns] a]. cbn [sym_ok fst snd] in O, Q. destruct O as (O1 & O2 & O3 & O4 & O5).
  split; [exact O1|]. split; [exact O2|]. split; [exact O3|]. cbn [inst ins refs opcode fst snd]. split; [unfold lenN in *; now rewrite map_length|].
  apply Forall_forall. intros z Z. apply in_map_iff in Z as (n & <- & J). pose proof (index_bound names n (proj1 (Forall_forall _ _) Q n J)). lia.
Qed.
Lemma short_table l : Forall (fun n : list N => lenN n <= 255) l -> table_bytes l <= 256 * lenN l.
Proof. induction 1 as [|n l L F IH]; [reflexivity|]. cbn [table_bytes fold_right]. fold (table_bytes l). rewrite lenN_cons. lia. Qed.
Lemma frame_inspected rtl E path k toks : holds_frame E path k toks ->
  Forall (fun n => lenN n <= 255) (frame_all k) -> lenN (frame_all k) <= 65535 -> (rtl = true -> Forall no_check (fr_parts k)) ->
  exists im names, (forall fuel, (length toks < fuel)%nat -> compile_file E fuel path = CImage im) /\
    NoDup names /\ (forall s, In s names <-> In s (frame_names k)) /\
    let p := frame_instrs (index_of names) k in im = image names (SpecNames.code p) /\
    (lenN im < 2 ^ 31 -> inspect rtl im = Ok (Inspection 1 (Z.of_N (lenN names)) 16 (Z.of_N (lenN im - lenN (SpecNames.code p))) names (lines_of 0 p))).
Proof.
  intros HP LB LN K. pose proof (frame_text _ _ _ _ HP) as TX. pose proof HP as HP'. destruct HP' as (src & ws & RD & LX & M & SR).
  destruct (compile_frame E k ws path src toks SR RD LX M TX LB ltac:(lia)) as (names & ND & IN & C).
  destruct (fewer_bytes names ND (frame_names k) ltac:(intros x I; now apply IN)) as (L & B).
  assert (LS : lenN (frame_names k) <= 65535) by (unfold frame_all in LN; rewrite !lenN_app in LN; lia).
  assert (TN : Forall text names).
  { apply Forall_forall. intros x I. apply (proj1 (Forall_forall _ _) TX). apply in_or_app. right. apply in_or_app. right. now apply IN. }
  assert (PL : Forall (LemPartsRun.part_plain (index_of names)) (fr_parts k)).
  { eapply frame_plain; [exact HP|exact LN|]. intros n I. pose proof (index_bound names n (proj2 (IN n) I)). lia. }
  exists (image names (SpecNames.code (frame_instrs (index_of names) k))), names. split; [exact C|]. split; [exact ND|]. split; [exact IN|]. cbv zeta. split; [reflexivity|].
  intros LI. set (p := frame_instrs (index_of names) k) in *. 
  assert (S255 : Forall (fun n => lenN n <= 255) names).
  { apply Forall_forall. intros x I. apply (proj1 (Forall_forall _ _) LB). apply in_or_app. right. apply in_or_app. right. now apply IN. }
  pose proof (short_table names S255) as TB.
  assert (LI' : lenN (image names (SpecNames.code p)) = 16 + table_bytes names + lenN (SpecNames.code p)) by (apply image_len; auto; lia).
  rewrite LI' in *. replace (16 + table_bytes names + lenN (SpecNames.code p) - lenN (SpecNames.code p)) with (16 + table_bytes names) by lia.
  pose proof (frame_reads rtl (index_of names) k PL K) as FR.
  apply inspect_image; auto; try lia.
  - eapply frame_wf; eauto. lia.
  - eapply Forall_impl; [|exact FR]. cbn. tauto.
Qed.
