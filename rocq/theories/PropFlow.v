(** C40, C41: conditionals and switches.  The distances the code is built from are those before unused names are removed; that
    pass changes no length and no jump (C42). *)
From Coq Require Import Strings.String.
From Verif Require Import Base SpecBytes ModelFloat ModelVM SpecVM ModelText SpecText ModelParse ModelSchema SpecParse SpecFlow LemFlow LemLayout
  Samples PropParse.

(** ** C40 *)

(** What parse_if emits: the code of the condition, of the block, and of what follows "else" (another if, or a block; nothing
    without an else), each just as it is compiled there, put together as [if_code]. *)
Theorem C40_layout : forall E f p p', parse_if E (S f) p = POk tt p' ->
  exists cond thn els pa pb pc pf,
    appends (consume TLparen ;; parse_expression E f) p cond pa /\
    consume TRparen pa = POk tt pb /\
    appends (parse_block E f) (more [0x50; 0; 0; 0; 0] pb) thn pc /\
    (let pd := set_out (p_out p ++ cond ++ [0x50] ++ bytes_of LE 4 (lenN thn + 5) ++ thn ++ [0x52; 0; 0; 0; 0]) pc in
     if is_kind TElse (p_cur pc)
     then exists pe, advance pd = POk tt pe /\
          appends (let% i := at_kind TIf in if i then advance ;; parse_if E f else parse_block E f) pe els pf
     else els = [] /\ pf = pd) /\
    p' = set_out (p_out p ++ if_code cond thn els) pf.
Proof. exact if_layout. Qed.
Print Assumptions C40_layout.

(** Wherever such code stands, if the condition leaves [v] on the stack, the first branch runs when [v] is not zero and the
    second when it is, and either way the run arrives behind the code.  The branches are any code that runs from its start to
    its end, so also conditionals and switches themselves, and sequences of such (C40_sequences). *)
Theorem C40_branches : forall (H : Type) (host : H -> request -> H * reply) lm cond thn els C T E,
  does host lm cond C -> does host lm thn T -> does host lm els E ->
  does host lm (if_code cond thn els) (if_effect C T E).
Proof. intros H. exact does_if. Qed.
Print Assumptions C40_branches.
(** No instruction of the other branch is executed. *)
Theorem C40_then : forall (H : Type) (host : H -> request -> H * reply) lm bc q cond thn els C T,
  wf_bytes bc -> lenN bc < 2 ^ 31 -> placed bc q (if_code cond thn els) ->
  forall s h s1 h1 v rest s2 h2, does host lm cond C -> does host lm thn T ->
  C s h s1 h1 -> stk s1 = v :: rest -> v <> 0 -> T (set_stk s1 rest) h1 s2 h2 ->
  walks_in host lm bc (within q (q + lenN cond + 5 + lenN thn + 5)) (set_ip s q) h (set_ip s2 (q + lenN (if_code cond thn els))) h2.
Proof. intros H host lm bc q cond thn els C T WB LB P s h s1 h1 v rest s2 h2. now apply if_then. Qed.
Print Assumptions C40_then.
Theorem C40_else : forall (H : Type) (host : H -> request -> H * reply) lm bc q cond thn els C E,
  wf_bytes bc -> lenN bc < 2 ^ 31 -> placed bc q (if_code cond thn els) ->
  forall s h s1 h1 rest s2 h2, does host lm cond C -> does host lm els E ->
  C s h s1 h1 -> stk s1 = 0 :: rest -> E (set_stk s1 rest) h1 s2 h2 ->
  walks_in host lm bc
    (fun i => within q (q + lenN cond + 5) i \/ within (q + lenN cond + 5 + lenN thn + 5) (q + lenN (if_code cond thn els)) i)
    (set_ip s q) h (set_ip s2 (q + lenN (if_code cond thn els))) h2.
Proof. intros H host lm bc q cond thn els C E WB LB P s h s1 h1 rest s2 h2. now apply if_else. Qed.
Print Assumptions C40_else.
Theorem C40_sequences : forall (H : Type) (host : H -> request -> H * reply) lm, does host lm [] nothing /\
  forall a b R1 R2, does host lm a R1 -> does host lm b R2 -> does host lm (a ++ b) (followed R1 R2).
Proof. intros H host lm. split; [apply does_nil|apply does_app]. Qed.
Print Assumptions C40_sequences.
(** Conditions: the code of an integer expression (C39_integers) leaves its value. *)
Theorem C40_conditions : forall (H : Type) (host : H -> request -> H * reply) lm val e, (forall k, val k < 2 ^ 64) ->
  (forall h k, k < 2 ^ 16 -> let r := snd (host h (ask k 0x60 (cvar 8 0) HQuery)) in r_ok r = true /\ answer 8 0 r = val k) ->
  keys_fit e -> does host lm (postfix e) (computes host val e).
Proof. intros H. exact does_postfix. Qed.
Print Assumptions C40_conditions.

(** ** C41 *)

(** What parse_switch emits: the bodies, each just as it is compiled there, under the values read before them, put together as
    [switch_code].  The values are distinct.  Missing: 65536 cases or more, whose number does not fit the table. *)
Theorem C41_layout_partial : forall E f p p', tk (p_cur p) = TSwitch -> p_err p = false -> parse_field E (S f) p = POk tt p' ->
  p_err p' = false -> lenN (p_out p') < 2 ^ 31 ->
  exists pa key pb l q q',
    (advance ;; consume TLparen) p = POk tt pa /\ tk (p_cur pa) = TIdentifier /\
    snd (strtab_add (p_strs pa) (ttext (p_cur pa))) = key /\ key < 2 ^ 16 /\
    (consume TIdentifier ;; add_name (ttext (p_cur pa)) ;; consume TRparen ;; consume TLbrace) pa = POk tt pb /\
    reads_cases E f (more ([0x51] ++ bytes_of LE 2 key ++ [0; 0; 0; 0]) pb) l q /\
    tk (p_cur q) = TRbrace /\ consume TRbrace q = POk tt q' /\ NoDup (values l) /\
    (lenN (values l) < 2 ^ 16 -> exists c, p' = set_out (p_out p ++ c) q' /\ switch_code key l c).
Proof. exact switch_layout. Qed.
Print Assumptions C41_layout_partial.

(** Wherever such code stands, in the form with a list or with a dense table: the host is asked for the discriminator, and the
    body under its value runs, otherwise the default body, otherwise none; then the run arrives behind the tables. *)
Theorem C41_dispatch : forall (H : Type) (host : H -> request -> H * reply) lm key l effs c,
  key < 2 ^ 16 -> switch_code key l c ->
  Forall2 (fun b e => fst b = fst e /\ does host lm (snd b) (snd e)) l effs ->
  does host lm c (switch_effect host key effs).
Proof. intros H. exact does_switch. Qed.
Print Assumptions C41_dispatch.

(** ** Samples *)

(** Pushing a number; the stack then tells which branches ran *)
Definition mark (n : N) : list N := postfix (ELit n).
(** if (f5 > 2) { 7 } else if (f5 == 1) { 8 } else { 9 } *)
Definition nested : list N :=
  if_code (postfix (EBin IGt (EField 5) (ELit 2))) (mark 7) (if_code (postfix (EBin IEq (EField 5) (ELit 1))) (mark 8) (mark 9)).
Example C40_nonvacuous : forall v, v < 2 ^ 64 ->
  let c := if 2 <? v then 7 else if v =? 1 then 8 else 9 in
  walks_in (always v) lm0 nested (within 0 (lenN nested)) (init Enc []) tt (set_ip (set_stk (init Enc []) [c]) (lenN nested)) tt.
Proof.
  intros v V c.
  assert (P : forall k : N, (fun _ => v) k < 2 ^ 64) by auto.
  assert (HV : forall (h : unit) k, k < 2 ^ 16 -> let r := snd (always v h (ask k 0x60 (cvar 8 0) HQuery)) in r_ok r = true /\ answer 8 0 r = (fun _ => v) k).
  { intros h k _. cbn. split; [reflexivity|]. unfold answer. cbn. apply N.mod_small. exact V. }
  assert (D : forall e, keys_fit e -> does (always v) lm0 (postfix e) (computes (always v) (fun _ => v) e)).
  { intros e. now apply C40_conditions. }
  assert (W : wf_bytes nested) by (repeat constructor).
  assert (D0 := C40_branches unit (always v) lm0 _ _ _ _ _ _ (D (EBin IGt (EField 5) (ELit 2)) ltac:(cbn; auto; repeat split))
    (D (ELit 7) I) (C40_branches unit (always v) lm0 _ _ _ _ _ _ (D (EBin IEq (EField 5) (ELit 1)) ltac:(cbn; repeat split)) (D (ELit 8) I) (D (ELit 9) I))).
  specialize (D0 nested 0 W ltac:(reflexivity) ltac:(split; [reflexivity|discriminate]) (init Enc []) tt
    (set_stk (init Enc []) [c]) tt).
  apply D0. exists (set_stk (init Enc []) [truth (2 <? v)]), tt, (truth (2 <? v)), [].
  split; [|split; [reflexivity|]].
  { split; [discriminate|]. split; [reflexivity|]. eexists. split; reflexivity. }
  unfold c. destruct (2 <? v); cbn [truth N.eqb].
  - split; [discriminate|]. split; [reflexivity|]. eexists. split; reflexivity.
  - exists (set_stk (init Enc []) [truth (v =? 1)]), tt, (truth (v =? 1)), []. split; [|split; [reflexivity|]].
    { split; [discriminate|]. split; [reflexivity|]. eexists. split; reflexivity. }
    destruct (v =? 1); cbn [truth N.eqb]; (split; [discriminate|]; split; [reflexivity|]; eexists; split; reflexivity).
Qed.

(** Source texts *)
Definition parse_fields (s : String.string) : option (list N * list (list N)) :=
  match block_loop env0 60 (reading s) with
  | POk _ p => if p_err p then None else Some (p_out p, p_strs p)
  | _ => None
  end.
(** A chain of conditionals, as C40_layout puts it; 0x10 is the instruction for a byte field *)
Example C40_layout_nonvacuous :
  parse_fields "if (a > 2) { uint8 b; } else if (a == 1) { if (c) { uint8 d; } } else { uint8 e; uint8 f; }" =
  Some (if_code (postfix (EBin IGt (EField 0) (ELit 2))) [0x10; 1; 0]
          (if_code (postfix (EBin IEq (EField 0) (ELit 1))) (if_code (postfix (EField 2)) [0x10; 3; 0] []) ([0x10; 4; 0] ++ [0x10; 5; 0])),
        [chars "a"; chars "b"; chars "c"; chars "d"; chars "e"; chars "f"]).
Proof. vm_compute. reflexivity. Qed.

Definition switch1 : string := "switch (k) { case 10: uint8 a; default: { uint8 b; } case 1000000: { } case 3: { uint8 c; uint8 d; } }".
Definition list1 : list body := [(Some 10, [0x10; 1; 0]); (None, [0x10; 2; 0]); (Some 1000000, []); (Some 3, [0x10; 3; 0; 0x10; 4; 0])].
Definition switch2 : string := "switch (k) { case 4: uint8 a; case 2: uint8 b; case 3: { uint8 c; uint8 d; } case 6: { } }".
Definition list2 : list body := [(Some 4, [0x10; 1; 0]); (Some 2, [0x10; 2; 0]); (Some 3, [0x10; 3; 0; 0x10; 4; 0]); (Some 6, [])].
(** One with the list, one with a table for 2 to 6 *)
Example C41_layout_nonvacuous :
  (exists c, parse_fields switch1 = Some (c, [chars "k"; chars "a"; chars "b"; chars "c"; chars "d"]) /\ switch_code 0 list1 c /\ hd 0 c = 0x51) /\
  (exists c, parse_fields switch2 = Some (c, [chars "k"; chars "a"; chars "b"; chars "c"; chars "d"]) /\ switch_code 0 list2 c /\ hd 0 c = 0x53) /\
  parse_fields "switch (k) { case 4: uint8 a; case 4: uint8 b; }" = None.
Proof.
  split; [|split].
  - eexists. split; [vm_compute; reflexivity|]. split; [|reflexivity]. apply (code_list 0 list1); [reflexivity|]. repeat constructor.
  - eexists. split; [vm_compute; reflexivity|]. split; [|reflexivity]. apply (code_dense 0 list2 2 4); [|reflexivity]. repeat constructor; discriminate.
  - vm_compute. reflexivity.
Qed.
(** The same two forms with marks for bodies, for every discriminator *)
Definition marked : list body := [(Some 10, mark 7); (None, mark 8); (Some 1000000, []); (Some 3, mark 9)].
Definition marked_code : list N :=
  [0x51] ++ bytes_of LE 2 5 ++ bytes_of LE 4 (total marked) ++ bodies_code marked 42 ++ list_table (cases_from 0 marked) (default_offset marked 42).
Example C41_nonvacuous : forall v, v < 2 ^ 64 ->
  let c := if v =? 10 then [7] else if v =? 1000000 then [] else if v =? 3 then [9] else [8] in
  walks_in (always v) lm0 marked_code (within 0 (lenN marked_code)) (init Enc []) tt (set_ip (set_stk (init Enc []) c) (lenN marked_code)) tt.
Proof.
  intros v V c.
  assert (D : forall n, does (always v) lm0 (mark n) (computes (always v) (fun _ => v) (ELit n))).
  { intros n. apply C40_conditions; [auto| |exact I]. intros h k _. cbn. split; [reflexivity|]. unfold answer. cbn. apply N.mod_small. exact V. }
  assert (W : wf_bytes marked_code) by (repeat constructor).
  assert (SC : switch_code 5 marked marked_code) by (apply (code_list 5 marked); [reflexivity|repeat constructor]).
  pose proof (C41_dispatch unit (always v) lm0 5 marked
    [(Some 10, computes (always v) (fun _ => v) (ELit 7)); (None, computes (always v) (fun _ => v) (ELit 8)); (Some 1000000, nothing);
     (Some 3, computes (always v) (fun _ => v) (ELit 9))] marked_code ltac:(reflexivity) SC) as D0.
  assert (F : Forall2 (fun (b : body) (e : option N * @effect unit) => fst b = fst e /\ does (always v) lm0 (snd b) (snd e)) marked
    [(Some 10, computes (always v) (fun _ => v) (ELit 7)); (None, computes (always v) (fun _ => v) (ELit 8)); (Some 1000000, nothing);
     (Some 3, computes (always v) (fun _ => v) (ELit 9))]).
  { repeat (apply Forall2_cons; [split; [reflexivity|first [apply D|apply C40_sequences]]|]). apply Forall2_nil. }
  specialize (D0 F marked_code 0 W ltac:(reflexivity) ltac:(split; [reflexivity|discriminate]) (init Enc []) tt (set_stk (init Enc []) c) tt).
  apply D0. exists tt, (say v). split; [reflexivity|]. split; [reflexivity|].
  assert (A : answer 8 0 (say v) = v) by (apply N.mod_small; exact V). rewrite A. unfold chosen, c. cbn [under otherwise].
  destruct (v =? 10); [|destruct (v =? 1000000); [|destruct (v =? 3)]]; try (split; [discriminate|]; split; [reflexivity|]; eexists; split; reflexivity).
  split; reflexivity.
Qed.
