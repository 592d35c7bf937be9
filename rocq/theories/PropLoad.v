(** C70: every schema the compiler accepts gives an image that both loaders accept. *)
From Coq Require Import Strings.String.
From Verif Require Import Base SpecBytes SpecVM SpecImage SpecLoad ModelFloat ModelVM ModelImage ModelText ModelNames ModelParse ModelSchema LemBase LemImage LemLoad PropGrammar.

(** Whatever the files hold, whatever the file system answers: the image is a header, the names one after the other, each
    ended by a NUL, and the code.  The names are qualified identifiers, all different; all the rest is bytes.  When there are
    at most 65535 names and the file is smaller than 4 GiB, the program loads, its code is that code, and identifiers and
    names are each other's inverse. *)
Theorem C70_every_image_loads : forall E fuel path im, compile_file E fuel path = CImage im ->
  exists names bc, im = sub im 0 16 ++ flat_map (fun s => s ++ [0]) names ++ bc /\
    Forall qualified names /\ NoDup names /\ wf_bytes im /\
    (lenN names <= 65535 -> lenN im < 2 ^ 32 -> exists pr, load_il im = Ok (Loaded pr) /\
       sub im (pr_bytecode pr) (pr_bytecode_len pr) = bc /\ pr_bytecode_len pr = lenN bc /\ pr_string_count pr = lenN names /\
       (forall i, i < lenN names -> get_key_id im pr (nth (N.to_nat i) names []) = Ok i /\
          exists p, get_key_name im pr i = Ok (Some p) /\ string_at im p (nth (N.to_nat i) names [])) /\
       (forall i, lenN names <= i -> get_key_name im pr i = Ok None) /\
       (forall s, text s -> ~ In s names -> get_key_id im pr s = Ok 0xFFFF) /\
       exists at_ ps, cli_load_il im = Ok (Some (at_, lenN bc, ps)) /\ sub im at_ (lenN bc) = bc /\ Forall2 (string_at im) ps names).
Proof. exact every_image. Qed.
Print Assumptions C70_every_image_loads.

(** Images below 64 KiB load without further conditions. *)
Theorem C70_small_images_load : forall E fuel path im, compile_file E fuel path = CImage im -> lenN im < 2 ^ 16 ->
  exists pr, load_il im = Ok (Loaded pr) /\
    (forall i, exists q, get_key_name im pr i = Ok q) /\ (forall s, exists q, get_key_id im pr s = Ok q).
Proof. exact small_image. Qed.
Print Assumptions C70_small_images_load.

(** Two files with an import, a nested structure, a switch, a condition and a counted array *)
Example C70_nonvacuous :
  exists im pr names, compile_file (project
    "Point at; u8 n; if (at.x > 3) { @count(n) u16 list[]; } switch (mode) { case Mode.Run: { u8 speed; } default: string why max 20; }")
    200 (chars "lib/sensor.cnd") = CImage im /\ lenN im < 2 ^ 16 /\ load_il im = Ok (Loaded pr) /\
  names = map chars ["y"; "mode"; "at"; "at.x"; "n"; "list"; "speed"; "why"; "Sensor"]%string /\
  map (get_key_id im pr) names = map Ok [0; 1; 2; 3; 4; 5; 6; 7; 8] /\ get_key_id im pr (chars "x") = Ok 0xFFFF.
Proof. do 3 eexists. split; [vm_compute; reflexivity|]. split; [vm_compute; reflexivity|]. split; [vm_compute; reflexivity|]. split; [reflexivity|]. split; vm_compute; reflexivity. Qed.
Example C70_names : qualified (chars "at.x") /\ qualified (chars "_b2") /\ ~ qualified (chars "2b") /\ ~ qualified [] /\ ~ qualified (chars "a b").
Proof.
  assert (L : forall x, letter x -> 65 <= x /\ x <= 122) by (unfold letter; intros; Lia.lia).
  split; [exists 97, (chars "t.x"); split; [reflexivity|]; split; [unfold letter; Lia.lia|]; apply Forall_forall; intros x X; cbn in X; unfold letter, digit; Lia.lia|].
  split; [exists 95, (chars "b2"); split; [reflexivity|]; split; [unfold letter; Lia.lia|]; apply Forall_forall; intros x X; cbn in X; unfold letter, digit; Lia.lia|].
  split; [intros (c & r & X & A & _); injection X as <- _; apply L in A; Lia.lia|].
  split; [intros (c & r & X & _); discriminate|].
  intros (c & r & X & _ & F). injection X as <- <-. inversion F as [|? ? Y _]; subst. unfold letter, digit in Y. Lia.lia.
Qed.
