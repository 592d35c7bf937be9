(** C76: the fields that the editor proposes. *)
From Coq Require Import Strings.String ZArith Lia.
From Verif Require Import SpecDiag ModelDiag ModelComplete SpecComplete.
From Verif Require LemOffers LemCompile.
From Verif Require Import Base SpecVM ModelText SpecText ModelParse ModelSchema SpecParse LemParse SpecPacket SpecMessage PropPacket SpecArrays LemFields.
Local Open Scope N_scope.

(** C76, full statement: see C76_proposals_partial.  Proved of the fields, for a file with one structure of plain fields and of arrays counted by
    another field or going to the end: in the arguments of @count and @len anywhere in it only fields are proposed, and among them are all fields
    in front of the first array of the latter kinds, where fields to count by are found.  Missing: structures with other statements and
    fields behind such an array; there fields may be missing (C76_refuted_missing), and names inside of fields that are structures are
    proposed (C76_refuted_unusable). *)
Theorem C76_fields_partial : forall E fuel path src toks s front rest ws,
  lex src = Some toks -> (List.length toks < fuel)%nat ->
  map word_of toks = [sign TStruct "struct"; (TIdentifier, s); sign TLbrace "{"] ++ ws ++ [sign TRbrace "}"] ++ [(TEof, [])] ->
  items_read (front ++ rest) ws -> Forall (fun i => exists c, i_what i = Plain c) front ->
  NoDup (map i_name (front ++ rest)) -> ~ In s SpecNest.type_names -> lenN (flat_map item_names (front ++ rest)) <= 65536 ->
  forall before line character d, cursor_at src before line character -> In d [chars "count"; chars "len"] ->
  arguments_of d (in_front before toks) -> body_of s (in_front before toks) ->
  exists l, complete E fuel path src line character = Offered (of_kind SpecComplete.field l) /\ forall i, In i front -> In (i_name i) l.
Proof.
  intros E fuel path src toks s front rest ws LX L M R PF ND NT LN before line ch d CA ID AR BO.
  assert (SL : lenN (LemParse.table [] (flat_map item_names (front ++ rest))) <= 65536) by (pose proof (LemCompile.table_small (flat_map item_names (front ++ rest)) []) as Q; change (lenN (@nil (list N))) with 0 in Q; lia).
  destruct (fields_proposed E fuel path src toks s front rest ws LX M R PF ND NT (items_text _ _ _ _ _ _ LX M R) SL L before line ch d CA ID AR BO) as (l & C & I).
  exists l. split; [exact C|]. intros i J. apply I. now apply in_map.
Qed.
Print Assumptions C76_fields_partial.

Definition front76 : string := "struct S { u8 a; @be u16 b[] prefix u8; string t; u8 n; @count(".
Definition src76 : string := front76 ++ "n) u8 c[]; }".
Definition item76 (l : list bool) (w : what) (s : string) : item := {| i_orders := l; i_what := w; i_name := chars s |}.
Definition fields76 : list item := [item76 [] (Plain (Scalar 0x10 One)) "a"; item76 [true] (Plain (Scalar 0x11 (Counted 1))) "b";
  item76 [] (Plain (Text 255)) "t"; item76 [] (Plain (Scalar 0x10 One)) "n"].
Definition counted76 : list item := [item76 [] (Listed (chars "n") 0x10) "c"].
Example C76_fields_nonvacuous :
  lex (chars src76) = Some (toks_of src76) /\
  (exists ws, map word_of (toks_of src76) = [sign TStruct "struct"; (TIdentifier, chars "S"); sign TLbrace "{"] ++ ws ++ [sign TRbrace "}"] ++ [(TEof, [])] /\
     items_read (fields76 ++ counted76) ws) /\
  Forall (fun i => exists c, i_what i = Plain c) fields76 /\ NoDup (map i_name (fields76 ++ counted76)) /\ ~ In (chars "S") SpecNest.type_names /\
  cursor_at (chars src76) (chars front76) 0 (Z.of_nat (String.length front76)) /\
  arguments_of (chars "count") (in_front (chars front76) (toks_of src76)) /\ body_of (chars "S") (in_front (chars front76) (toks_of src76)).
Proof.
  split; [vm_compute; reflexivity|]. split.
  { eexists. split; [|].
    2:{ cbn [fields76 counted76 app item76].
      eapply items_more; [apply item_plain; eexists [], _, _; split; [constructor|]; split; [apply (read_one 0x10 "u8"); member|reflexivity]|].
      eapply items_more; [apply item_plain; eexists [sign TAt "@"; ident "be"], _, _; split; [apply ord_more; [member|constructor]|]; split; [apply (read_counted 0x11 "u16" 1 "u8"); member|reflexivity]|].
      eapply items_more; [apply item_plain; eexists [], _, _; split; [constructor|]; split; [apply read_text|reflexivity]|].
      eapply items_more; [apply item_plain; eexists [], _, _; split; [constructor|]; split; [apply (read_one 0x10 "u8"); member|reflexivity]|].
      eapply items_more; [apply (item_listed [] [] [] [] "count" (chars "n") 0x10 "u8" (chars "c")); [constructor|constructor|member|member]|]. apply items_none. }
    vm_compute. reflexivity. }
  split; [repeat constructor; eexists; reflexivity|].
  split; [vm_compute; repeat constructor; cbn; intuition discriminate|].
  split; [intros I; vm_compute in I; repeat (destruct I as [I|I]; [discriminate|]); destruct I|].
  split.
  { split; [exists (chars "n) u8 c[]; }"); vm_compute; reflexivity|]. split; [vm_compute; reflexivity|]. split; [|vm_compute; reflexivity].
    intros I. vm_compute in I. repeat (destruct I as [I|I]; [discriminate|]). destruct I. }
  split; [apply LemOffers.deco_iff|apply LemOffers.body_iff]; eexists; vm_compute; reflexivity.
Qed.
