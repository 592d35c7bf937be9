(** C33-C35: compiled images and key lookups. *)
From Verif Require Import Base SpecBytes ModelWord ModelVM SpecVM ModelImage SpecImage LemImage.

(** C33: for NUL-free strings, at most 65535 of them and an image whose bytecode starts below 2^32, the image the
    compiler writes is accepted and gives back exactly that bytecode and those strings. *)
Theorem C33_written_image_loads strs bc :
  Forall text strs -> lenN strs <= 65535 -> 16 + table_bytes strs < 2 ^ 32 ->
  exists pr, load_il (image strs bc) = Ok (Loaded pr) /\
    sub (image strs bc) (pr_bytecode pr) (pr_bytecode_len pr) = bc /\ pr_bytecode_len pr = lenN bc /\
    pr_string_count pr = lenN strs /\
    forall i, i < lenN strs -> exists p,
      get_key_name (image strs bc) pr i = Ok (Some p) /\ string_at (image strs bc) p (nth (N.to_nat i) strs []).
Proof.
  intros T C B. exists (prog strs bc). split; [now apply load_image|]. split; [now apply prog_code|].
  split; [reflexivity|]. split; [reflexivity|]. intros i I. now apply name_of.
Qed.
Print Assumptions C33_written_image_loads.

(** The same for the loader of the command line tool. *)
Theorem C33_written_image_loads_cli strs bc :
  Forall text strs -> lenN strs <= 65535 -> 16 + table_bytes strs < 2 ^ 32 ->
  exists at_ ps, cli_load_il (image strs bc) = Ok (Some (at_, lenN bc, ps)) /\
    sub (image strs bc) at_ (lenN bc) = bc /\ Forall2 (string_at (image strs bc)) ps strs.
Proof.
  intros T C B. destruct (cli_load strs bc T C B) as (ps & A & D). exists (16 + table_bytes strs), ps.
  split; [exact A|]. split; [exact (prog_code strs bc T C B)|exact D].
Qed.
Print Assumptions C33_written_image_loads_cli.

Definition strs33 : list (list N) := [[97; 98]; []; [120]].
Definition bc33 : list N := [0x10; 0; 0; 0x17; 2; 0].
Example C33_nonvacuous :
  Forall text strs33 /\ lenN strs33 <= 65535 /\ 16 + table_bytes strs33 < 2 ^ 32 /\
  image strs33 bc33 =
    [67; 78; 68; 73; 76; 1; 3; 0; 16; 0; 0; 0; 22; 0; 0; 0; 97; 98; 0; 0; 120; 0; 0x10; 0; 0; 0x17; 2; 0] /\
  get_key_name (image strs33 bc33) {| pr_bytecode := 22; pr_bytecode_len := 6; pr_string_table := 16; pr_string_count := 3 |} 2
    = Ok (Some 20).
Proof. split; [repeat constructor|]. vm_compute. repeat split; discriminate. Qed.

(** C34: on the loaded image the identifier of the i-th of distinct names is i, the name of identifier i is the i-th
    name, unknown identifiers have no name and unknown names have the identifier 0xFFFF. *)
Theorem C34_names_and_identifiers strs bc pr :
  Forall text strs -> lenN strs <= 65535 -> 16 + table_bytes strs < 2 ^ 32 ->
  load_il (image strs bc) = Ok (Loaded pr) ->
  (NoDup strs -> forall i, i < lenN strs -> get_key_id (image strs bc) pr (nth (N.to_nat i) strs []) = Ok i) /\
  (forall i, i < lenN strs -> exists p, get_key_name (image strs bc) pr i = Ok (Some p) /\
     string_at (image strs bc) p (nth (N.to_nat i) strs [])) /\
  (forall i, lenN strs <= i -> get_key_name (image strs bc) pr i = Ok None) /\
  (forall name, text name -> ~ In name strs -> get_key_id (image strs bc) pr name = Ok 0xFFFF).
Proof.
  intros T C B L. rewrite load_image in L by auto. injection L as <-. split; [|split; [|split]].
  - intros ND i I. rewrite id_of; auto; [now rewrite index_nth|].
    apply (proj1 (Forall_forall _ _) T). apply nth_In. unfold lenN in I. clear - I. Lia.lia.
  - intros i I. now apply name_of.
  - intros i I. now apply name_out.
  - intros name TN X. rewrite id_of; auto. now rewrite index_none.
Qed.
Print Assumptions C34_names_and_identifiers.

(** With repeated names the first one counts. *)
Theorem C34_first_occurrence strs bc pr name :
  Forall text strs -> lenN strs <= 65535 -> 16 + table_bytes strs < 2 ^ 32 ->
  load_il (image strs bc) = Ok (Loaded pr) -> text name ->
  get_key_id (image strs bc) pr name = Ok (match index_of name strs with Some i => i | None => 0xFFFF end).
Proof. intros T C B L TN. rewrite load_image in L by auto. injection L as <-. now apply id_of. Qed.
Print Assumptions C34_first_occurrence.

Example C34_nonvacuous :
  NoDup strs33 /\
  map (get_key_id (image strs33 bc33) {| pr_bytecode := 22; pr_bytecode_len := 6; pr_string_table := 16; pr_string_count := 3 |})
    [[97; 98]; []; [120]; [97]; [97; 98; 99]] = [Ok 0; Ok 1; Ok 2; Ok 0xFFFF; Ok 0xFFFF] /\
  index_of [1] [[2]; [1]; [1]] = Some 1.
Proof.
  split; [|vm_compute; auto]. repeat (constructor; [cbn; intuition discriminate|]). constructor.
Qed.

(** C35: the loader never reads outside the image, accepts exactly the images whose header is good, and then reports the
    sections the header names. *)
Theorem C35_loader_accepts_exactly img : wf_bytes img ->
  (header_ok img -> load_il img = Ok (Loaded
     {| pr_bytecode := val_of LE (sub img 12 4); pr_bytecode_len := lenN img - val_of LE (sub img 12 4);
        pr_string_table := val_of LE (sub img 8 4); pr_string_count := val_of LE (sub img 6 2) |})) /\
  (~ header_ok img -> exists e, load_il img = Ok (LoadErr e)).
Proof. exact (load_spec img). Qed.
Print Assumptions C35_loader_accepts_exactly.

(** Full statement: after a successful load every key lookup reads only inside the image.  Proved for images which hold
    as many NUL bytes from the string table on as strings were announced (missing: the loader does not check that, see the
    refutation). *)
Theorem C35_lookups_inside_partial img pr : wf_bytes img -> load_il img = Ok (Loaded pr) ->
  pr_string_count pr <= nuls img (pr_string_table pr) ->
  (forall i, exists q, get_key_name img pr i = Ok q) /\ (forall name, exists q, get_key_id img pr name = Ok q).
Proof. intros _ _ L. now apply lookups_ok. Qed.
Print Assumptions C35_lookups_inside_partial.

(** Images written by the compiler meet that condition. *)
Theorem C35_written_images_inside strs bc pr :
  Forall text strs -> lenN strs <= 65535 -> 16 + table_bytes strs < 2 ^ 32 ->
  load_il (image strs bc) = Ok (Loaded pr) ->
  (forall i, exists q, get_key_name (image strs bc) pr i = Ok q) /\
  (forall name, exists q, get_key_id (image strs bc) pr name = Ok q).
Proof. exact (written_lookups strs bc pr). Qed.
Print Assumptions C35_written_images_inside.

Example C35_nonvacuous :
  let img := image strs33 bc33 in
  header_ok img /\ nuls img 16 = 6 /\ ~ header_ok (tl img) /\ load_il (firstn 15 img) = Ok (LoadErr EOob) /\
  load_il ([67; 78; 68; 73; 76; 2] ++ skipn 6 img) = Ok (LoadErr EInvalidOp) /\
  load_il (firstn 21 img) = Ok (LoadErr EOob).
Proof.
  cbv zeta. split; [vm_compute; repeat split; discriminate|]. split; [reflexivity|].
  split; [vm_compute; intros (_ & X & _); discriminate|]. vm_compute. auto.
Qed.

(** An accepted 16-byte image announcing two strings it does not hold: both lookups read past its end. *)
Definition img35 : list N := [67; 78; 68; 73; 76; 1; 2; 0; 16; 0; 0; 0; 16; 0; 0; 0].
Theorem C35_refuted_unterminated : exists img pr, load_il img = Ok (Loaded pr) /\
  get_key_name img pr 1 = Ub UIl /\ get_key_id img pr [97] = Ub UIl.
Proof. exists img35. eexists. split; [vm_compute; reflexivity|]. vm_compute. auto. Qed.
Print Assumptions C35_refuted_unterminated.

(** The command line tool reads past the end already while loading such an image, and takes any version. *)
Theorem C35_refuted_cli : exists img img', load_il img' = Ok (LoadErr EInvalidOp) /\
  (exists x, cli_load_il img' = Ok (Some x)) /\ cli_load_il img = Ub UIl.
Proof.
  exists img35, ([67; 78; 68; 73; 76; 9] ++ skipn 6 (image strs33 bc33)).
  split; [vm_compute; reflexivity|]. split; [eexists; vm_compute; reflexivity|]. vm_compute. reflexivity.
Qed.
Print Assumptions C35_refuted_cli.
