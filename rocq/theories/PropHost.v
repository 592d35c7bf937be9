(** C65: what the callback is told. *)
From Verif Require Import Base SpecBytes ModelWord ModelFloat ModelTrans SpecVM ModelVM Samples SpecHost LemSafe LemRun LemHost LemTold.

(** In every run of every program, in both directions and with every host, each call tells the type of what its pointer points to. *)
Theorem C65_told : forall (H : Type) (host : H -> request -> H * reply) lm bc fuel m data h o h' t,
  wf_bytes bc -> lenN bc < 2 ^ 62 -> wf_bytes data ->
  run host lm bc fuel (init m data) h = (o, h', t) -> Forall (fun ev => told m (lenN data) (fst ev)) t.
Proof. intros H host lm bc fuel m data h o h' t WB BL WD R. exact (run_told host lm bc WB BL fuel _ _ _ _ _ (init_Inv False m data WD) R). Qed.
Print Assumptions C65_told.

(** Full property: every string pointed to while decoding is all of the string in the packet, as the packet is when the instruction
    starts, and a string without a length in front is followed by a NUL.

    Proved: all of it except the NUL behind a string of the greatest length allowed, where it is false (see the refutation). *)
Theorem C65_strings_partial : forall (H : Type) (host : H -> request -> H * reply) lm bc data h s h1 x h2 t,
  wf_bytes bc -> lenN bc < 2 ^ 62 -> wf_bytes data ->
  reaches host lm bc (init Dec data) h s h1 -> interp host (step lm bc s) h1 = (x, h2, t) ->
  Forall (fun ev => text_told (buf s) (en s) (fst ev)) t.
Proof. intros H host lm bc data h s h1 x h2 t WB BL WD R E. exact (reached_text host lm bc Dec data h s h1 x h2 t WB BL WD R E). Qed.
Print Assumptions C65_strings_partial.

(** A program with a number, a big-endian string with its length, a string ended by a NUL and an array of bytes, which is handed over in one call *)
Definition prog65 : list N := [0x11; 0; 0; 0x02; 0x32; 1; 0; 0x30; 2; 0; 4; 0; 0x35; 3; 0; 0x10; 4; 0; 0x38].
Definition data65 : list N := [7; 1; 0; 2; 65; 66; 67; 0; 2; 8; 9].
Example C65_nonvacuous :
  wf_bytes prog65 /\ lenN prog65 < 2 ^ 62 /\ wf_bytes data65 /\
  exists s t, run quiet lm0 prog65 100 (init Dec data65) tt = (Done EOk s, tt, t) /\ cur s = 11 /\
    map (fun ev => (rq_op (fst ev), rq_pl (fst ev))) t =
      [(0x11, PInt W2 263); (0x32, PBuf 4 [65; 66]); (0x30, PBuf 6 [67]); (0x35, PInt W1 2); (0x39, PBuf 9 [8; 9])].
Proof.
  split; [repeat constructor|]. split; [reflexivity|]. split; [repeat constructor|]. eexists. eexists.
  split; [vm_compute; reflexivity|]. split; reflexivity.
Qed.

(** A string of the greatest length allowed need not be ended by a NUL: the byte behind it is skipped, whatever it is. *)
Theorem C65_refuted_terminator : exists s t,
  run quiet lm0 [0x30; 0; 0; 2; 0] 10 (init Dec [65; 66; 67]) tt = (Done EOk s, tt, t) /\ cur s = 3 /\
  map (fun ev => rq_pl (fst ev)) t = [PBuf 0 [65; 66]].
Proof. eexists. eexists. split; [vm_compute; reflexivity|]. split; reflexivity. Qed.
Print Assumptions C65_refuted_terminator.
