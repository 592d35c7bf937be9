(** C66: the Go package. *)
From Verif Require Import Base SpecBytes ModelWord ModelFloat ModelTrans SpecVM ModelVM Samples ModelImage SpecImage ModelJson SpecHost ModelGo SpecGo LemGo.

(** Full property: a callback written with the accessors of the Go package, chosen by the type alone, makes Execute do what the
    interpreter does with the callback meant: same error, same packet bytes, same data of the callback.

    Proved for every callback, program and direction, and packets of 1 to 2^31 - 1 bytes, when no decoded NUL-terminated string has
    the greatest length allowed. Missing: the other cases, where it is false (see the refutations). *)
Theorem C66_execute_partial : forall (H : Type) (u : H -> mode -> N -> N -> seen -> H * answer) lm fuel p data m h o h' t,
  wf_bytes (go_bytecode p) -> lenN (go_bytecode p) < 2 ^ 62 -> wf_bytes data -> 0 < lenN data < 2 ^ 31 ->
  run (plain_host u m) lm (go_bytecode p) fuel (init m data) h = (o, h', t) ->
  (m = Dec -> Forall (fun ev => closed (fst ev)) t) ->
  go_execute (go_callback u) lm fuel (Some p) data m h = go_result o h'.
Proof. intros H u lm fuel p data m h o h' t. exact (execute_same u lm fuel p data m h o h' t). Qed.
Print Assumptions C66_execute_partial.

(** LoadProgram of a written image gives its bytecode, its names and their identifiers. *)
Theorem C66_load : forall strs bc, Forall text strs -> lenN strs <= 65535 -> 16 + table_bytes strs < 2 ^ 32 ->
  exists p, go_load (image strs bc) = Ok (GoLoaded p) /\ go_bytecode p = bc /\
    (forall i, i < lenN strs -> go_key_name (Some p) i = Ok (nth (N.to_nat i) strs [])) /\
    (forall i, lenN strs <= i -> go_key_name (Some p) i = Ok []) /\
    (forall name, text name -> go_key_id (Some p) name = Ok (match index_of name strs with Some i => i | None => 0xFFFF end)).
Proof. exact loads. Qed.
Print Assumptions C66_load.

(** Anything else that does not start like an image, or is shorter than the header of one, is bytecode without names. *)
Theorem C66_load_bytecode : forall data, data <> [] -> (lenN data < 16 \/ firstn 5 data <> [67; 78; 68; 73; 76]) ->
  exists p, go_load data = Ok (GoLoaded p) /\ go_bytecode p = data /\
    (forall i, go_key_name (Some p) i = Ok []) /\ (forall name, go_key_id (Some p) name = Ok 0xFFFF).
Proof. exact loads_raw. Qed.
Print Assumptions C66_load_bytecode.

(** After Close nothing is executed and no name is known. *)
Theorem C66_closed : forall (H : Type) (cb : H -> mode -> N -> N -> value -> result (H * reply)) lm fuel data m h i name,
  go_execute cb lm fuel None data m h = Returned (Some EOob) data h /\ go_key_name None i = Ok [] /\ go_key_id None name = Ok 0xFFFF.
Proof. intros. repeat split. Qed.
Print Assumptions C66_closed.

(** ** Examples: the author keeps a log and answers from a list *)
Definition keeper (h : list (N * seen) * list answer) (m : mode) (key op : N) (x : seen) : (list (N * seen) * list answer) * answer :=
  match snd h with
  | [] => ((fst h ++ [(key, x)], []), match x with Raw => Refuse | _ => Accept end)
  | a :: r => ((fst h ++ [(key, x)], r), a)
  end.
Definition raw66 (bc : list N) : go_program :=
  {| g_mem := bc; g_names := false; g_prog := {| pr_bytecode := 0; pr_bytecode_len := lenN bc; pr_string_table := 0; pr_string_count := 0 |} |}.
Definition prog66 : list N := [0x11; 0; 0; 0x02; 0x32; 1; 0; 0x30; 2; 0; 4; 0; 0x35; 3; 0; 0x10; 4; 0; 0x38].
Definition data66 : list N := [7; 1; 0; 2; 65; 66; 67; 0; 2; 8; 9].
Example C66_nonvacuous :
  go_load prog66 = Ok (GoLoaded (raw66 prog66)) /\
  (exists s h t, run (plain_host keeper Dec) lm0 prog66 100 (init Dec data66) ([], []) = (Done EOk s, h, t) /\ Forall (fun ev => closed (fst ev)) t) /\
  go_execute (go_callback keeper) lm0 100 (Some (raw66 prog66)) data66 Dec ([], []) =
    Returned None data66 ([(0, Number 263); (1, Words [65; 66]); (2, Words [67]); (3, Number 2); (4, Raw); (4, Number 8); (4, Number 9); (0, Bare)], []) /\
  go_execute (go_callback keeper) lm0 100 (Some (raw66 prog66)) (repeat 0 11) Enc
    ([], [Store 263; Give [65; 66]; Give [67]; Store 2; Refuse; Store 8; Store (256 + 9)]) =
    Returned None data66 ([(0, Number 0); (1, Wanted); (2, Wanted); (3, Number 0); (4, Raw); (4, Number 0); (4, Number 0); (0, Bare)], []).
Proof.
  split; [vm_compute; reflexivity|]. split; [|split; vm_compute; reflexivity]. eexists. eexists. eexists. split; [vm_compute; reflexivity|]. repeat constructor.
Qed.
Example C66_load_nonvacuous :
  exists p, go_load (image [[97]; [98; 99]] prog66) = Ok (GoLoaded p) /\ go_key_name (Some p) 1 = Ok [98; 99] /\ go_key_id (Some p) [98; 99] = Ok 1.
Proof. eexists. split; [vm_compute; reflexivity|]. split; vm_compute; reflexivity. Qed.

(** A string of the greatest length allowed: String reads on behind what was meant, or out of the packet. *)
Theorem C66_refuted_longest_string : exists s t,
  run (plain_host keeper Dec) lm0 [0x30; 0; 0; 2; 0] 10 (init Dec [65; 66; 67; 0]) ([], []) = (Done EOk s, ([(0, Words [65; 66])], []), t) /\
  go_execute (go_callback keeper) lm0 10 (Some (raw66 [0x30; 0; 0; 2; 0])) [65; 66; 67; 0] Dec ([], []) = Returned None [65; 66; 67; 0] ([(0, Words [65; 66; 67])], []) /\
  go_execute (go_callback keeper) lm0 10 (Some (raw66 [0x30; 0; 0; 2; 0])) [65; 66; 67] Dec ([], []) = Undefined UData.
Proof. eexists. eexists. split; [vm_compute; reflexivity|]. split; vm_compute; reflexivity. Qed.
Print Assumptions C66_refuted_longest_string.

(** A program for an empty packet runs in the interpreter; Execute always fails. *)
Theorem C66_refuted_empty_packet : exists s h t,
  run (plain_host keeper Enc) lm0 [0x03; 0; 0; 0x04] 10 (init Enc []) ([], []) = (Done EOk s, h, t) /\
  go_execute (go_callback keeper) lm0 10 (Some (raw66 [0x03; 0; 0; 0x04])) [] Enc ([], []) = Returned (Some EOob) [] ([], []).
Proof. eexists. eexists. eexists. split; vm_compute; reflexivity. Qed.
Print Assumptions C66_refuted_empty_packet.

(** An image cut off in its header is not refused but taken for bytecode. *)
Theorem C66_refuted_cut_image : go_load (firstn 15 (image [[97]] prog66)) = Ok (GoLoaded (raw66 (firstn 15 (image [[97]] prog66)))).
Proof. vm_compute. reflexivity. Qed.
Print Assumptions C66_refuted_cut_image.

(** A Go string with a NUL in it is encoded up to there, without an error. *)
Theorem C66_refuted_nul_in_string :
  go_execute (go_callback keeper) lm0 10 (Some (raw66 [0x31; 0; 0])) [9; 9; 9; 9] Enc ([], [Give [65; 0; 66]]) = Returned None [1; 65; 9; 9] ([(0, Wanted)], []).
Proof. vm_compute. reflexivity. Qed.
Print Assumptions C66_refuted_nul_in_string.

(** From 2^31 bytes on Execute panics when it copies the packet back, whatever the interpreter did. *)
Theorem C66_refuted_large_packet : exists p, go_load (image [] []) = Ok (GoLoaded p) /\
  forall (H : Type) (cb : H -> mode -> N -> N -> value -> result (H * reply)) lm f data m h, 2 ^ 31 <= lenN data < 2 ^ 32 ->
    go_execute cb lm (S f) (Some p) data m h = Panicked.
Proof. eexists. split; [vm_compute; reflexivity|]. intros. now apply too_large. Qed.
Print Assumptions C66_refuted_large_packet.
