(** Lemmas for the command line tool. *)
From Coq Require Import Strings.String.
From Verif Require Import Base ModelFloat ModelVM ModelImage ModelText SpecText ModelFmt SpecFmt ModelNames ModelParse ModelSchema ModelJson ModelHex ModelInspect ModelTool SpecTool SpecAlike LemAlike
  LemFmt LemFmtSame LemLex.

Lemma same_text_iff a b : same_text a b = true <-> a = b.
Proof. unfold same_text. destruct (list_eq_dec N.eq_dec a b); split; congruence. Qed.

Lemma put_same fs i l : put fs i l i = Some l. Proof. unfold put. now rewrite N.eqb_refl. Qed.
Lemma put_other fs i l j : j <> i -> put fs i l j = fs j. Proof. intros H. unfold put. now rewrite (proj2 (N.eqb_neq j i) H). Qed.

Lemma read_contents S fs p l : read_bytes S fs p = Some l -> contents S fs p = Some l.
Proof. unfold read_bytes. destruct (contents S fs p) as [[|]|]; [destruct (s_empty S)|..]; congruence. Qed.
Lemma text_contents S fs p l : read_text S fs p = Some l -> exists t, contents S fs p = Some t /\ l = cstr t.
Proof. unfold read_text. destruct (contents S fs p) as [t|]; [|discriminate]. intros [= <-]. eauto. Qed.

(** How a command that exits leaves the files: as they were; or written at one place, exiting 0; or unwritten because it cannot be opened *)
Definition leaves (S : system) (fs : files) (argv : list (list N)) (code : N) (fs' : files) : Prop :=
  (code = 1 /\ fs' = fs) \/
  (code = 0 /\ fs' = fs /\ ~ exists out, output argv out) \/
  (exists out l, output argv out /\ asked_for S fs argv l /\ code = 0 /\
     ((s_writable S out = true /\ fs' = put fs (s_place S out) l) \/ (s_writable S out = false /\ fs' = fs))).

Lemma output_one argv o o' : output argv o -> output argv o' -> o = o'.
Proof. intros A B. destruct A; inversion B; subst; try reflexivity; discriminate. Qed.
Lemma chars_ne a b : chars a <> chars b -> same_text (chars a) (chars b) = false.
Proof. intros H. destruct (same_text (chars a) (chars b)) eqn:E; [|reflexivity]. now apply same_text_iff in E. Qed.

Ltac no_output := intros (? & H); inversion H; subst; discriminate.
Lemma main_leaves S fuel fs argv code fs' pr : main S fuel fs argv = Exits code fs' pr -> leaves S fs argv code fs'.
Proof.
  unfold main. destruct argv as [|c args]. { intros [= <- <- _]. now left. }
  destruct (same_text c (chars "compile")) eqn:C1.
  { apply same_text_iff in C1. subst c. unfold cmd_compile. destruct args as [|src [|out r]]; try (intros [= <- <- _]; now left).
    destruct (compile_file (env_of S fs) fuel src) as [img| | |] eqn:C; try discriminate; [|intros [= <- <- _]; now left].
    unfold write_bytes. destruct (s_writable S out) eqn:W; intros [= <- <- _]; [|now left]. right. right. exists out, img.
    split; [constructor|]. split; [constructor; eauto|]. split; [reflexivity|]. left. auto. }
  destruct (same_text c (chars "fmt")) eqn:C2.
  { apply same_text_iff in C2. subst c. unfold cmd_fmt. destruct args as [|src outs]; [intros [= <- <- _]; now left|].
    destruct (read_text S fs src) as [text|] eqn:R; [|intros [= <- <- _]; now left]. apply text_contents in R as (t & R & ->).
    destruct (format_source (cstr t)) as [o|] eqn:F; [|discriminate]. destruct outs as [|out r].
    - intros [= <- <- _]. right. left. split; [reflexivity|]. split; [reflexivity|]. no_output.
    - unfold write_text, write_bytes. destruct (s_writable S out) eqn:W; intros [= <- <- _]; [|now left]. right. right. exists out, (cstr o).
      split; [constructor|]. split; [econstructor; eauto|]. split; [reflexivity|]. left. auto. }
  destruct (same_text c (chars "inspect")) eqn:C0.
  { apply same_text_iff in C0. subst c. unfold cmd_inspect. destruct args as [|il r]; [intros [= <- <- _]; now left|].
    destruct (contents S fs il) as [data|]; [|intros [= <- <- _]; now left]. destruct (inspect false data) as [[| |]|]; try discriminate; intros [= <- <- _]; [now left|].
    right. left. split; [reflexivity|]. split; [reflexivity|]. no_output. }
  destruct (same_text c (chars "encode")) eqn:C3.
  { apply same_text_iff in C3. subst c. unfold cmd_encode. destruct args as [|il [|doc [|out r]]]; try (intros [= <- <- _]; now left).
    destruct (read_bytes S fs il) as [img|] eqn:R; [|intros [= <- <- _]; now left]. apply read_contents in R.
    destruct (loaded img) as [| | |]; try discriminate; [|intros [= <- <- _]; now left].
    destruct (read_text S fs doc) as [text|] eqn:T; [|intros [= <- <- _]; now left]. apply text_contents in T as (t & T & ->).
    destruct (s_parse S (cstr t)) as [d|] eqn:P; [|intros [= <- <- _]; now left].
    destruct (cli_encode (s_libm S) fuel img d) as [l| | |] eqn:C; try discriminate; [|intros [= <- <- _]; now left].
    intros [= <- <- _]. right. right. exists out, l. split; [constructor|]. split; [econstructor; eauto|]. split; [reflexivity|].
    unfold write_bytes. destruct (s_writable S out); [left|right]; auto. }
  destruct (same_text c (chars "decode")) eqn:C4.
  { apply same_text_iff in C4. subst c. unfold cmd_decode. destruct args as [|il [|bin [|out r]]]; try (intros [= <- <- _]; now left).
    destruct (read_bytes S fs il) as [img|] eqn:R; [|intros [= <- <- _]; now left]. apply read_contents in R.
    destruct (loaded img) as [| | |]; try discriminate; [|intros [= <- <- _]; now left].
    destruct (read_bytes S fs bin) as [bytes|] eqn:T; [|intros [= <- <- _]; now left]. apply read_contents in T.
    destruct (match r with o :: _ => _ | [] => _ end) eqn:HX.
    - destruct (cli_decode_hex (s_libm S) fuel img bytes) as [d| | |] eqn:C; try discriminate; [|intros [= <- <- _]; now left].
      destruct r as [|o r]; [discriminate|]. apply same_text_iff in HX. subst o.
      intros [= <- <- _]. right. right. exists out, (cstr (s_print S d)). split; [constructor|]. split; [eapply Ask_hex; eauto|]. split; [reflexivity|].
      unfold write_text, write_bytes. destruct (s_writable S out); [left|right]; auto.
    - destruct (cli_decode (s_libm S) fuel img bytes) as [d| | |] eqn:C; try discriminate; [|intros [= <- <- _]; now left].
      intros [= <- <- _]. right. right. exists out, (cstr (s_print S d)). split; [constructor|]. split; [eapply Ask_decode; eauto|].
      { intros o H. destruct r as [|o1 r]; [discriminate|]. injection H as ->. intros ->. rewrite (proj2 (same_text_iff _ _) eq_refl) in HX. discriminate. }
      split; [reflexivity|]. unfold write_text, write_bytes. destruct (s_writable S out); [left|right]; auto. }
  destruct (same_text c (chars "lsp")); [discriminate|].
  assert (NO : ~ exists out, output (c :: args) out).
  { intros (o & H). inversion H; subst; first [discriminate C1 | discriminate C2 | discriminate C3 | discriminate C4]. }
  destruct (_ || _ || _)%bool; [intros [= <- <- _]; right; left; auto|].
  destruct (_ || _ || _)%bool; intros [= <- <- _]; [right; left|left]; auto.
Qed.

(** ** Texts without NUL *)
Lemma cstr_text l : Forall (fun c => c <> 0 /\ c < 256) (cstr l).
Proof.
  induction l as [|b l IH]; cbn [cstr]; [constructor|]. destruct (N.eqb_spec (b mod 256) 0); [constructor|]. constructor; [split; [assumption|lia]|exact IH].
Qed.
Lemma cstr_same l : Forall (fun c => c <> 0 /\ c < 256) l -> cstr l = l.
Proof.
  induction 1 as [|b l (A & B) _ IH]; cbn [cstr]; [reflexivity|]. rewrite N.mod_small by exact B. destruct (N.eqb_spec b 0); [contradiction|]. now rewrite IH.
Qed.
Lemma cstr_again l : cstr (cstr l) = cstr l. Proof. apply cstr_same, cstr_text. Qed.

Lemma spaces_text n : Forall (fun c => c <> 0 /\ c < 256) (spaces n).
Proof. induction n; cbn [spaces]; repeat constructor; try discriminate; assumption. Qed.
Lemma format_text fuel : forall l s o, Forall (fun c => c <> 0 /\ c < 256) l -> fmt_loop fuel l s = Some o -> Forall (fun c => c <> 0 /\ c < 256) o.
Proof.
  induction fuel as [|fuel IH]; intros l s o L; cbn [fmt_loop]; [discriminate|]. destruct (fmt_next l) as [[[k v] r]|] eqn:N.
  - destruct (next_parts _ _ _ _ N) as (J & _). subst l. apply Forall_app in L as (V & R).
    assert (T : forall s0, (let (o0, s1) := put_token s0 k v in option_map (app o0) (fmt_loop fuel r s1)) = Some o -> Forall (fun c => c <> 0 /\ c < 256) o).
    { intros s0. unfold put_token. destruct (fmt_loop fuel r _) as [w|] eqn:F; [|discriminate]. intros [= <-]. apply IH in F; [|exact R].
      cbn [fst snd]. rewrite !Forall_app. split; [|exact F]. split; [|split; [|split; [|exact V]]].
      - destruct (_ && _)%bool; [destruct (1 <? _)|]; repeat constructor; discriminate.
      - destruct (if 0 <? _ then _ else _); [apply spaces_text|]. destruct (if 0 <? _ then _ else _); repeat constructor; discriminate.
      - destruct k; repeat constructor; discriminate. }
    destruct k; try (apply T); intros F; eapply IH; eauto.
  - intros [= <-]. repeat constructor; discriminate.
Qed.

(** Formatting a file in place *)
Lemma in_place S fuel fs src r text : contents S fs src = Some text -> s_writable S src = true -> tidy Code (cstr text) = true ->
  exists fs' o, main S fuel fs (cmd "fmt" (src :: src :: r)) = Exits 0 fs' [] /\ format_source (cstr text) = Some o /\ fs' = put fs (s_place S src) o /\
  same_sources (env_of S fs) (env_of S fs').
Proof.
  intros C W T. destruct (format_code _ T) as (o & ts & to & F & A & B & D). exists (put fs (s_place S src) o), o.
  assert (CO : cstr o = o) by (apply cstr_same; apply (format_text _ _ _ _ (cstr_text text) F)).
  split; [|split; [exact F|split; [reflexivity|]]].
  - change (main S fuel fs (cmd "fmt" (src :: src :: r))) with (cmd_fmt S fs (src :: src :: r)). unfold cmd_fmt, read_text. rewrite C. cbn [option_map]. rewrite F.
    unfold write_text, write_bytes. now rewrite W, CO.
  - repeat split. intros p. cbn [env_of e_read]. unfold read_text, contents in *. destruct (s_readable S p); [|exact Logic.I].
    unfold put. destruct (N.eqb_spec (s_place S p) (s_place S src)) as [->|_].
    + destruct (s_readable S src); [|discriminate]. rewrite C. cbn [option_map]. rewrite CO. exists ts, to. auto.
    + destruct (fs (s_place S p)) as [q|]; [|exact Logic.I]. cbn [option_map].
      destruct (lex_from_spec (Datatypes.S (length (cstr q))) (cstr q) 0 1 ltac:(lia)) as (us & L & _). exists us, us. auto.
Qed.

(** ** Commands that succeed *)
Lemma loads_il {A} img (k : list N -> list (list N) -> command A) x : with_il img k = Exit0 x -> loaded img = Exit0 tt.
Proof.
  unfold loaded, with_il. destruct (cli_load_il img) as [[[[off len] ps]|]|]; try discriminate.
  destruct (slice UIl img off len), (name_strings img ps); try discriminate. reflexivity.
Qed.
Lemma compile_runs S fuel fs src out r img : compile_file (env_of S fs) fuel src = CImage img -> s_writable S out = true ->
  main S fuel fs (cmd "compile" (src :: out :: r)) = Exits 0 (put fs (s_place S out) img) [].
Proof.
  intros C W. change (main S fuel fs (cmd "compile" (src :: out :: r))) with (cmd_compile S fuel fs (src :: out :: r)).
  unfold cmd_compile, write_bytes. now rewrite C, W.
Qed.
Lemma encode_runs S fuel fs il doc out r img text d l : read_bytes S fs il = Some img -> contents S fs doc = Some text -> s_parse S (cstr text) = Some d ->
  cli_encode (s_libm S) fuel img d = Exit0 l -> s_writable S out = true ->
  main S fuel fs (cmd "encode" (il :: doc :: out :: r)) = Exits 0 (put fs (s_place S out) l) [].
Proof.
  intros R T P C W. change (main S fuel fs (cmd "encode" (il :: doc :: out :: r))) with (cmd_encode S fuel fs (il :: doc :: out :: r)).
  unfold cmd_encode, write_bytes, read_text. rewrite R. rewrite (loads_il _ _ _ C), T. cbn [option_map]. now rewrite P, C, W.
Qed.
Lemma decode_runs S fuel fs il bin out img bytes d : read_bytes S fs il = Some img -> read_bytes S fs bin = Some bytes ->
  cli_decode (s_libm S) fuel img bytes = Exit0 d -> s_writable S out = true ->
  main S fuel fs (cmd "decode" [il; bin; out]) = Exits 0 (put fs (s_place S out) (cstr (s_print S d))) [].
Proof.
  intros R B C W. change (main S fuel fs (cmd "decode" [il; bin; out])) with (cmd_decode S fuel fs [il; bin; out]).
  unfold cmd_decode, write_text, write_bytes. now rewrite R, (loads_il _ _ _ C), B, C, W.
Qed.
Lemma loads_some img : loaded img = Exit0 tt -> img <> [].
Proof. intros H ->. vm_compute in H. discriminate. Qed.
Lemma bytes_there S fs p l : s_readable S p = true -> fs (s_place S p) = Some l -> l <> [] \/ s_empty S = true -> read_bytes S fs p = Some l.
Proof. intros R F L. unfold read_bytes, contents. rewrite R, F. destruct l; [|reflexivity]. destruct L as [L | ->]; [contradiction|reflexivity]. Qed.
