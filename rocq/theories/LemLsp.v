(** The language server *)
From Coq Require Import Strings.String.
From Verif Require Import Base LemBase ModelWord ModelFloat ModelVM ModelImage ModelText ModelFmt ModelNames ModelParse ModelSchema ModelJson LemJnum ModelTool LemTool ModelLsp SpecLsp.
Ltac Zify.zify_post_hook ::= Z.div_mod_to_equations.

(** ** Decimal numbers *)
Definition digit (c : N) : Prop := 48 <= c <= 57.
Lemma digits_of_digit f : forall n, Forall digit (digits_of f n).
Proof.
  induction f as [|f IH]; intros n; cbn [digits_of]; [constructor|]. destruct (N.ltb_spec n 10); [repeat constructor; lia|].
  apply Forall_app. split; [apply IH|]. repeat constructor; lia.
Qed.
Lemma digits_of_length f : forall n, (length (digits_of f n) <= f)%nat.
Proof. induction f as [|f IH]; intros n; cbn [digits_of]; [cbn; lia|]. destruct (N.ltb_spec n 10); [cbn; lia|]. rewrite app_length. cbn. specialize (IH (n / 10)). lia. Qed.
Lemma pos_size p : N.pos p < 2 ^ N.of_nat (Pos.size_nat p).
Proof. induction p as [p IH|p IH|]; cbn [Pos.size_nat]; rewrite ?Nat2N.inj_succ, ?N.pow_succ_r'; lia. Qed.
Lemma size_bound n : n < 2 ^ N.of_nat (Datatypes.S (N.size_nat n)).
Proof. destruct n as [|p]; [reflexivity|]. cbn [N.size_nat]. pose proof (pos_size p). rewrite Nat2N.inj_succ, N.pow_succ_r'. lia. Qed.
Lemma digits_back f : forall n t acc, n < 2 ^ N.of_nat (Datatypes.S f) ->
  exists k, digits_value (digits_of (Datatypes.S f) n ++ t) acc = digits_value t (acc * 10 ^ k + n).
Proof.
  induction f as [|f IH]; intros n t acc L.
  - change (2 ^ N.of_nat 1) with 2 in L. cbn [digits_of]. destruct (N.ltb_spec n 10); [|lia]. exists 1. cbn [app digits_value]. replace ((48 <=? 48 + n) && (48 + n <=? 57)) with true by lia.
    f_equal. rewrite N.pow_1_r. lia.
  - remember (Datatypes.S f) as f1. cbn [digits_of]. destruct (N.ltb_spec n 10).
    + exists 1. cbn [app digits_value]. replace ((48 <=? 48 + n) && (48 + n <=? 57)) with true by lia. f_equal. rewrite N.pow_1_r. lia.
    + rewrite Nat2N.inj_succ, N.pow_succ_r' in L. subst f1. destruct (IH (n / 10) ([48 + n mod 10] ++ t) acc) as (k & E); [lia|]. exists (k + 1).
      rewrite <- app_assoc, E. cbn [app digits_value]. replace ((48 <=? 48 + n mod 10) && (48 + n mod 10 <=? 57)) with true by lia. f_equal.
      rewrite N.pow_add_r, N.pow_1_r. set (m := acc * 10 ^ k). replace (acc * (10 ^ k * 10)) with (m * 10) by (unfold m; lia). clearbody m. lia.
Qed.
Lemma decimal_digit n : Forall digit (decimal n). Proof. apply digits_of_digit. Qed.
Lemma decimal_cons n : exists c r, decimal n = c :: r.
Proof.
  unfold decimal. cbn [digits_of]. destruct (n <? 10); [eauto|]. destruct (digits_of (N.size_nat n) (n / 10)) as [|c r]; cbn; eauto.
Qed.
Lemma size_small n : n < 2 ^ 31 -> (N.size_nat n <= 31)%nat.
Proof.
  intros L. destruct n as [|p]; [cbn; lia|]. cbn [N.size_nat]. assert (H : 2 ^ N.of_nat (pred (Pos.size_nat p)) <= N.pos p).
  { clear. induction p as [p IH|p IH|]; cbn [Pos.size_nat pred]; [| |reflexivity]; destruct (Pos.size_nat p) as [|k] eqn:E; cbn [pred] in IH.
    all: try (destruct p; discriminate E). all: rewrite Nat2N.inj_succ, N.pow_succ_r'; lia. }
  destruct (Nat.le_gt_cases (Pos.size_nat p) 31) as [|G]; [assumption|]. exfalso.
  assert (2 ^ 31 <= 2 ^ N.of_nat (pred (Pos.size_nat p))) by (apply N.pow_le_mono_r; lia). lia.
Qed.
Lemma decimal_short n : n < 2 ^ 31 -> (length (decimal n) <= 32)%nat.
Proof. intros L. unfold decimal. pose proof (digits_of_length (Datatypes.S (N.size_nat n)) n). pose proof (size_small n L). lia. Qed.
(** ** Framing *)
Lemma take_line_at n : forall a r, Forall (fun c => c <> 10) a -> (length a < n)%nat -> take_line n (a ++ 10 :: r) = (a ++ [10], r).
Proof.
  induction n as [|n IH]; intros a r F L; [lia|]. destruct a as [|c a]; cbn [app take_line]; [reflexivity|]. inversion_clear F as [|? ? NC F']. cbn in L.
  destruct (N.eqb_spec c 10); [contradiction|]. rewrite IH by (auto; lia). reflexivity.
Qed.
Lemma line_at a r : Forall (fun c => c <> 10) a -> (length a <= 1021)%nat -> take_line 1023 (a ++ 13 :: 10 :: r) = (a ++ [13; 10], r).
Proof.
  intros F L. change (a ++ 13 :: 10 :: r) with (a ++ ([13] ++ 10 :: r)). rewrite app_assoc. rewrite take_line_at; [now rewrite <- app_assoc| |rewrite app_length; cbn [length]; lia].
  apply Forall_app. split; [exact F|]. repeat constructor. discriminate.
Qed.
Lemma header_cons fuel len c inp : read_header (Datatypes.S fuel) len (c :: inp) =
  let (line, rest) := take_line 1023 (c :: inp) in
  if list_eq_dec N.eq_dec (firstn 16 line) content_length then
    let? z := atoi (skipn 16 line) in read_header fuel (if (z <? 0)%Z then Z.to_N (2 ^ 64 + z) else Z.to_N z) rest
  else if list_eq_dec N.eq_dec (cstr line) [13; 10] then Got (Some (len, rest))
  else if list_eq_dec N.eq_dec (cstr line) [10] then Got (Some (len, rest))
  else read_header fuel len rest.
Proof. reflexivity. Qed.
Lemma cstr_len l : (length (cstr l) <= length l)%nat.
Proof. induction l as [|b l IH]; cbn [cstr]; [lia|]. destruct (b mod 256 =? 0); cbn [length]; lia. Qed.
Lemma other_line fuel len l rest : other_header l -> read_header (Datatypes.S fuel) len (l ++ crlf ++ rest) = read_header fuel len rest.
Proof.
  intros (F & NE & L & P). destruct l as [|c l]; [congruence|]. set (h := c :: l) in *. assert (E : exists q, h ++ crlf ++ rest = c :: q) by (unfold h; cbn; eauto). destruct E as (q & E). rewrite E, header_cons, <- E.
  unfold crlf. cbn [app]. rewrite line_at; [|eapply Forall_impl; [|exact F]; cbn; tauto|unfold lenN in L; lia].
  destruct (list_eq_dec N.eq_dec (firstn 16 (h ++ [13; 10])) content_length) as [X|_].
  { exfalso. assert (LH : (16 <= length h)%nat \/ (length h < 16)%nat) by lia. destruct LH as [LH|LH].
    - rewrite firstn_app in X. replace (16 - length h)%nat with 0%nat in X by lia. cbn [firstn] in X. rewrite app_nil_r in X. apply P. exact X.
    - (* the carriage return is among the first sixteen *)
      assert (I13 : In 13 content_length).
      { rewrite <- X. rewrite firstn_app. apply in_or_app. right. destruct (16 - length h)%nat eqn:K; [lia|]. left. reflexivity. }
      revert I13. clear. unfold content_length. cbn. intuition discriminate. }
  assert (C : cstr (h ++ [13; 10]) = h ++ [13; 10]).
  { apply cstr_same. apply Forall_app. split; [eapply Forall_impl; [|exact F]; cbn; tauto|]. repeat constructor; discriminate. }
  rewrite C. destruct (list_eq_dec N.eq_dec (h ++ [13; 10]) [13; 10]) as [X|_]; [exfalso; apply (f_equal (@length N)) in X; rewrite app_length in X; unfold h in X; cbn in X; lia|].
  destruct (list_eq_dec N.eq_dec (h ++ [13; 10]) [10]) as [X|_]; [exfalso; apply (f_equal (@length N)) in X; rewrite app_length in X; unfold h in X; cbn in X; lia|]. reflexivity.
Qed.
Lemma other_lines hs : Forall other_header hs -> forall fuel len rest, read_header (length hs + fuel) len (headers hs ++ rest) = read_header fuel len rest.
Proof.
  induction 1 as [|h hs O _ IH]; intros fuel len rest; [reflexivity|]. unfold headers. cbn [flat_map length Nat.add]. rewrite <- !app_assoc. rewrite other_line by exact O. apply IH.
Qed.
Lemma value_fold l : Forall digit l -> forall t acc, match t with c :: _ => ~ digit c | [] => True end ->
  digits_value (l ++ t) acc = fold_left (fun v c => 10 * v + (c - 48)) l acc.
Proof.
  induction 1 as [|c l D F IH]; intros t acc T; cbn [app fold_left].
  - destruct t as [|c t]; cbn [digits_value]; [reflexivity|]. unfold digit in T. destruct ((48 <=? c) && (c <=? 57)) eqn:E; [lia|reflexivity].
  - cbn [digits_value]. unfold digit in D. replace ((48 <=? c) && (c <=? 57)) with true by lia. rewrite IH by exact T. f_equal. lia.
Qed.
Lemma says_decimal n : n < 2 ^ 31 -> says (decimal n) n.
Proof.
  intros L. split; [apply decimal_digit|]. split; [destruct (decimal_cons n) as (c & r & ->); discriminate|]. split; [pose proof (decimal_short n L); unfold lenN; lia|].
  unfold decimal_value. rewrite <- (value_fold (decimal n) (decimal_digit n) [] 0 Logic.I). destruct (digits_back (N.size_nat n) n [] 0 (size_bound n)) as (k & E). unfold decimal. rewrite E. cbn [digits_value]. lia.
Qed.
Lemma atoi_says d n t : says d n -> n < 2 ^ 31 -> match t with c :: _ => ~ digit c | [] => True end -> atoi (d ++ t) = Got (Z.of_N n).
Proof.
  intros (F & NE & _ & V0) L T. assert (V : digits_value (d ++ t) 0 = n) by (rewrite (value_fold d F t 0 T); exact V0).
  destruct d as [|c r]; [congruence|]. inversion_clear F as [|? ? DC _]. cbn [app] in *. unfold atoi. cbn [no_space].
  replace ((c =? 32) || ((9 <=? c) && (c <=? 13))) with false by lia.
  assert (M : match c :: r ++ t with 45 :: q => (- Z.of_N (digits_value q 0))%Z | 43 :: q => Z.of_N (digits_value q 0) | q => Z.of_N (digits_value q 0) end = Z.of_N (digits_value (c :: r ++ t) 0)).
  { assert (H : c = 48 \/ c = 49 \/ c = 50 \/ c = 51 \/ c = 52 \/ c = 53 \/ c = 54 \/ c = 55 \/ c = 56 \/ c = 57) by lia. decompose [or] H; subst c; reflexivity. }
  rewrite M, V. unfold int_min, int_max. replace ((-2147483648 <=? Z.of_N n) && (Z.of_N n <=? 2147483647))%Z with true by lia. reflexivity.
Qed.
Lemma length_line fuel len d n rest : says d n -> n < 2 ^ 31 -> read_header (Datatypes.S fuel) len (content_length ++ d ++ crlf ++ rest) = read_header fuel n rest.
Proof.
  intros D L. change (content_length ++ d ++ crlf ++ rest) with (67 :: (tl content_length ++ d ++ crlf ++ rest)). rewrite header_cons.
  change (67 :: (tl content_length ++ d ++ crlf ++ rest)) with (content_length ++ d ++ crlf ++ rest). rewrite app_assoc. unfold crlf. cbn [app]. rewrite line_at.
  - rewrite <- app_assoc. change (firstn 16 (content_length ++ d ++ [13; 10])) with content_length. destruct list_eq_dec as [_|X]; [|congruence].
    change (skipn 16 (content_length ++ d ++ [13; 10])) with (d ++ [13; 10]). rewrite (atoi_says d n) by (auto; unfold digit; lia). cbn [next].
    replace (Z.of_N n <? 0)%Z with false by lia. now rewrite N2Z.id.
  - apply Forall_app. split; [repeat constructor; discriminate|]. destruct D as (F & _). eapply Forall_impl; [|exact F]. cbn. lia.
  - destruct D as (_ & _ & K & _). rewrite app_length. unfold lenN in K. change (length content_length) with 16%nat. lia.
Qed.
Lemma empty_line fuel len rest : read_header (Datatypes.S fuel) len (crlf ++ rest) = Got (Some (len, rest)).
Proof. reflexivity. Qed.
Lemma headers_length hs : Forall other_header hs -> (length hs <= length (headers hs))%nat.
Proof. induction 1 as [|h hs _ _ IH]; [cbn; lia|]. unfold headers in *. cbn [flat_map length]. rewrite !app_length. unfold crlf in *. cbn [length]. lia. Qed.

Lemma read_framed b before digits after text rest : Forall other_header before -> Forall other_header after -> body text -> says digits (lenN text) ->
  read_body b (framed before digits after text ++ rest) = Got (Some (text, rest)).
Proof.
  intros HB HA (F & L1 & L2) D. unfold read_body. assert (E : read_header (Datatypes.S (length (framed before digits after text ++ rest))) 0 (framed before digits after text ++ rest) = Got (Some (lenN text, text ++ rest))).
  { set (fuel := Datatypes.S _). assert (FU : (length before + (1 + (length after + 1)) <= fuel)%nat).
    { unfold fuel, framed. rewrite !app_length. pose proof (headers_length before HB). pose proof (headers_length after HA). unfold crlf. cbn [length]. lia. }
    replace fuel with (length before + (1 + (length after + (1 + (fuel - (length before + (1 + (length after + 1))))))))%nat by lia. generalize (fuel - (length before + (1 + (length after + 1))))%nat as more. intros more.
    unfold framed. rewrite <- !app_assoc. rewrite other_lines by exact HB. cbn [Nat.add]. rewrite (length_line _ _ digits (lenN text)) by (assumption || lia). rewrite other_lines by exact HA. apply empty_line. }
  rewrite E. cbn [next]. replace (lenN text =? 0) with false by lia. replace (lenN text =? 2 ^ 64 - 1) with false by lia. replace (2 ^ 63 <=? lenN text) with false by lia.
  unfold lenN. rewrite Nat2N.id. rewrite firstn_app, Nat.sub_diag, firstn_all, skipn_app, Nat.sub_diag, skipn_all. cbn [firstn skipn app]. rewrite app_nil_r. now rewrite (cstr_same text F).
Qed.

(** ** Messages *)
Lemma doc_get_update u t v ds : doc_get v (doc_update u t ds) = if list_eq_dec N.eq_dec u v then Some t else doc_get v ds.
Proof.
  induction ds as [|(u0, t0) ds IH]; cbn [doc_update doc_get]; [reflexivity|]. destruct (list_eq_dec N.eq_dec u0 u) as [-> |NE]; cbn [doc_get].
  - destruct (list_eq_dec N.eq_dec u v); reflexivity.
  - rewrite IH. destruct (list_eq_dec N.eq_dec u0 v) as [-> |]; [|reflexivity]. destruct (list_eq_dec N.eq_dec u v); [congruence|reflexivity].
Qed.
Lemma the_int_num z : (0 <= z < 2 ^ 31)%Z -> the_int (Some (num z)) = Got z.
Proof.
  intros B. unfold the_int, the_item. cbn [next]. unfold num. destruct (of_Z_exact z) as (F & R & _); [lia|].
  rewrite (valueint_ok _ z F R) by (unfold int_min, int_max; lia). reflexivity.
Qed.
Lemma piece_fits text off p : off + lenN p < 4096 -> piece (text, off) p = Got (text ++ p, off + lenN p).
Proof.
  intros L. unfold piece. destruct (N.ltb_spec 4096 off); [lia|]. rewrite firstn_all2; [reflexivity|]. unfold lenN in L. lia.
Qed.
Lemma hover_fits f : lenN (hover_full f) < 4096 -> hover_text f = Got (hover_full f).
Proof.
  intros L. unfold hover_text, hover_full in *. set (file := match d_file f with Some p => p | None => _ end) in *. set (line := decimal_z _) in *.
  set (doc := match d_doc f with Some d => [10; 10] ++ d | None => [] end) in *. set (det := match d_details f with Some d => [10; 10] ++ d | None => [] end) in *.
  set (head := chars "**" ++ d_name f ++ chars "**" ++ [10; 10] ++ chars "Defined in " ++ file ++ chars " on line " ++ line ++ chars ".").
  assert (E : chars "**" ++ d_name f ++ chars "**" ++ [10; 10] ++ chars "Defined in " ++ file ++ chars " on line " ++ line ++ chars "." ++ doc ++ det = head ++ doc ++ det) by (unfold head; now rewrite <- !app_assoc).
  rewrite E in *. rewrite !lenN_app in L. rewrite piece_fits by lia. cbn [next]. change ([] ++ head) with head. change (0 + lenN head) with (lenN head).
  assert (D : match d_doc f with Some d => piece (head, lenN head) ([10; 10] ++ d) | None => Got (head, lenN head) end = Got (head ++ doc, lenN head + lenN doc)).
  { unfold doc in *. destruct (d_doc f); [apply piece_fits; lia|]. rewrite app_nil_r. change (lenN (@nil N)) with 0. now rewrite N.add_0_r. }
  rewrite D. cbn [next].
  assert (D2 : match d_details f with Some d => piece (head ++ doc, lenN head + lenN doc) ([10; 10] ++ d) | None => Got (head ++ doc, lenN head + lenN doc) end = Got ((head ++ doc) ++ det, lenN head + lenN doc + lenN det)).
  { unfold det in *. destruct (d_details f); [apply piece_fits; lia|]. rewrite app_nil_r. change (lenN (@nil N)) with 0. now rewrite N.add_0_r. }
  rewrite D2. cbn [next fst]. now rewrite <- app_assoc.
Qed.

Definition shows (ds : docs) (past : list message) : Prop := forall uri, doc_get uri ds = open_text past uri.
Lemma source_current V fs ds past u : shows ds past -> source_of V fs ds u = current_text V fs past u.
Proof. intros S. unfold source_of, current_text. now rewrite S. Qed.
Lemma handled V fs ds past m : shows ds past -> asked_well V fs past m ->
  exists ds', handle V fs ds (json_of m) = Got (ds', sends V fs past m, false) /\ shows ds' (m :: past).
Proof.
  intros S W. destruct m as [id q|u t|u ts t|u|u].
  - exists ds. split; [|exact S]. destruct q as [| |u l c|u l c|u l c|u|u|m]; cbn [asked_well] in W; try contradiction.
    + reflexivity.
    + reflexivity.
    + transitivity (let? line := the_int (Some (num l)) in let? character := the_int (Some (num c)) in
        match source_of V fs ds u with None => Got (ds, [response (Some id) JNull], false) | Some text =>
          match v_find V fs (uri_path u) text line character with Some f => Got (ds, [response (Some id) (location u f)], false) | None => Got (ds, [response (Some id) JNull], false) end end); [reflexivity|].
      destruct W as (B1 & B2). rewrite !the_int_num by assumption. cbn [next]. rewrite (source_current V fs ds past u S). cbn [sends answer_to]. destruct (current_text V fs past u) as [t|]; [|reflexivity].
      destruct (v_find V fs (uri_path u) t l c); reflexivity.
    + transitivity (let? line := the_int (Some (num l)) in let? character := the_int (Some (num c)) in
        match source_of V fs ds u with None => Got (ds, [response (Some id) JNull], false) | Some text =>
          match v_find V fs (uri_path u) text line character with
          | Some f => let? t := hover_text f in Got (ds, [response (Some id) (obj [("contents", obj [("kind", str "markdown"); ("value", JStr t)])])%string], false)
          | None => Got (ds, [response (Some id) JNull], false) end end); [reflexivity|].
      destruct W as (B1 & B2 & B3). rewrite !the_int_num by assumption. cbn [next]. rewrite (source_current V fs ds past u S). cbn [sends answer_to]. destruct (current_text V fs past u) as [t|]; [|reflexivity].
      specialize (B3 t). destruct (v_find V fs (uri_path u) t l c) as [f|]; [|reflexivity]. rewrite hover_fits by (apply B3; reflexivity). reflexivity.
    + transitivity (let? line := the_int (Some (num l)) in let? character := the_int (Some (num c)) in
        match source_of V fs ds u with None => Got (ds, [response (Some id) JNull], false) | Some text =>
          Got (ds, [response (Some id) (v_complete V fs (uri_path u) text line character)], false) end); [reflexivity|].
      destruct W as (B1 & B2). rewrite !the_int_num by assumption. cbn [next]. rewrite (source_current V fs ds past u S). cbn [sends answer_to]. destruct (current_text V fs past u) as [t|]; reflexivity.
    + transitivity (match file_text V fs u with None => Got (ds, [response (Some id) JNull], false) | Some text =>
          Got (ds, [response (Some id) (whole_edit (match format_source text with Some o => cstr o | None => text end))], false) end); [reflexivity|].
      rewrite <- W. cbn [sends answer_to]. destruct (current_text V fs past u) as [t|]; reflexivity.
    + transitivity (match file_text V fs u with None => Got (ds, [response (Some id) JNull], false) | Some text =>
          Got (ds, [response (Some id) (v_symbols V fs (uri_path u) text u)], false) end); [reflexivity|].
      rewrite <- W. cbn [sends answer_to]. destruct (current_text V fs past u) as [t|]; reflexivity.
  - exists (doc_update u t ds). split; [reflexivity|]. intros v. rewrite doc_get_update. cbn [open_text]. destruct list_eq_dec; [reflexivity|apply S].
  - exists (doc_update u t ds). split; [|intros v; rewrite doc_get_update; cbn [open_text]; destruct list_eq_dec; [reflexivity|apply S]].
    transitivity (match rev (map (fun x => obj [("text", JStr x)]%string) (ts ++ [t])) with
      | [] => Got (ds, [], false)
      | c :: _ => match item (Some c) "text" with Some (JStr t) => Got (doc_update u t ds, [publish V fs u t], false) | _ => Got (ds, [], false) end end); [reflexivity|].
    rewrite map_app, rev_app_distr. reflexivity.
  - exists ds. split; [|exact S]. cbn [sends]. transitivity (match file_text V fs u with Some t => Got (ds, [publish V fs u t], false) | None => Got (ds, [], false) end); [reflexivity|].
    destruct (file_text V fs u); reflexivity.
  - exists ds. split; [reflexivity|]. intros v. cbn [open_text]. destruct list_eq_dec as [<- |]; [rewrite <- W; apply S|apply S].
Qed.

(** ** The bytes of a conversation *)
Lemma read_carried b bytes text rest : carries bytes text -> read_body b (bytes ++ rest) = Got (Some (text, rest)).
Proof. intros (bf & d & af & H1 & H2 & H3 & H4 & ->). now apply read_framed. Qed.
Lemma carried_long bytes text : carries bytes text -> (0 < length bytes)%nat.
Proof. intros (bf & d & af & _ & _ & _ & _ & ->). unfold framed. rewrite !app_length. change (length (chars "Content-Length: ")) with 16%nat. lia. Qed.
Lemma served V ms : forall bs time past ds fuel last, Forall2 (spoken V) ms bs -> shows ds past -> all_well V time past ms -> (length ms < fuel)%nat ->
  (last = [] \/ exists bye rest, farewell V bye /\ last = bye ++ rest) ->
  serve V fuel time ds (concat bs ++ last) = Got (conversation V time past ms).
Proof.
  induction ms as [|m ms IH]; intros bs time past ds fuel last F S W L E; inversion F as [|? b ? bs' SP F']; subst; (destruct fuel as [|fuel]; [cbn in L; lia|]).
  - cbn [concat app]. destruct E as [-> |(bye & rest & (text & C & P) & ->)]; [reflexivity|]. cbn [serve]. rewrite (read_carried _ _ _ _ C). cbn [next]. rewrite P. reflexivity.
  - destruct SP as (text & C & P). destruct W as (W1 & W2). cbn [serve concat]. rewrite <- app_assoc, (read_carried _ _ _ _ C). cbn [next]. rewrite P.
    destruct (handled V (time 0%nat) ds past m S W1) as (ds' & H & S'). rewrite H. cbn [next]. cbn [length] in L.
    rewrite (IH bs' _ (m :: past) ds' fuel last F' S' W2) by (assumption || lia). reflexivity.
Qed.
Lemma spoken_length V ms bs : Forall2 (spoken V) ms bs -> (length ms <= length (concat bs))%nat.
Proof.
  induction 1 as [|m b ms bs (text & C & _) _ IH]; cbn [concat length]; [lia|]. rewrite app_length. pose proof (carried_long b text C). lia.
Qed.
Lemma spoken_all V time ms bs last : Forall2 (spoken V) ms bs -> all_well V time [] ms -> (last = [] \/ exists bye rest, farewell V bye /\ last = bye ++ rest) ->
  cmd_lsp V time (concat bs ++ last) = Got (flat_map (fun j => send_text (v_print V j)) (conversation V time [] ms)).
Proof.
  intros F W E. unfold cmd_lsp. rewrite (served V ms bs time [] [] _ last F); [reflexivity|intros u; reflexivity|exact W| |exact E]. pose proof (spoken_length V ms bs F). rewrite app_length. lia.
Qed.
Lemma sent_carries text : body text -> carries (send_text text) text.
Proof.
  intros B. exists [], (decimal (lenN text)), []. repeat split; try constructor; try apply B. all: apply says_decimal; destruct B as (_ & _ & L); exact L.
Qed.

(** ** The server ends *)
Lemma take_line_parts n : forall inp a b, take_line n inp = (a, b) -> inp = a ++ b.
Proof.
  induction n as [|n IH]; intros inp a b E; cbn [take_line] in E; [now injection E as <- <-|]. destruct inp as [|c r]; [now injection E as <- <-|].
  destruct (c =? 10); [now injection E as <- <-|]. destruct (take_line n r) as (x, y) eqn:T. injection E as <- <-. cbn [app]. f_equal. now apply IH.
Qed.
Lemma take_line_some n c r a b : take_line (Datatypes.S n) (c :: r) = (a, b) -> (length b < length (c :: r))%nat.
Proof.
  intros E. pose proof (take_line_parts _ _ _ _ E) as P. cbn [take_line] in E. rewrite P, app_length. assert (a <> []).
  { destruct (c =? 10); [injection E as <- _; discriminate|]. destruct (take_line n r); injection E as <- _; discriminate. }
  destruct a; [congruence|cbn [length]; lia].
Qed.
Lemma atoi_fuel l : atoi l <> Bad NoFuel.
Proof. unfold atoi. set (z := match no_space l with 45 :: r => _ | _ => _ end). destruct (_ && _)%bool; discriminate. Qed.
Lemma header_fuel fuel : forall len inp, (length inp < fuel)%nat ->
  read_header fuel len inp <> Bad NoFuel /\ forall n rest, read_header fuel len inp = Got (Some (n, rest)) -> (length rest < length inp)%nat.
Proof.
  induction fuel as [|fuel IH]; intros len inp L; [lia|]. destruct inp as [|c inp]; [split; [discriminate|intros; discriminate]|]. rewrite header_cons.
  destruct (take_line 1023 (c :: inp)) as (line, rest) eqn:T. pose proof (take_line_some _ _ _ _ _ T) as R. cbn [length] in L, R.
  assert (IH' : forall len, read_header fuel len rest <> Bad NoFuel /\ forall n q, read_header fuel len rest = Got (Some (n, q)) -> (length q < length (c :: inp))%nat).
  { intros len'. destruct (IH len' rest ltac:(lia)) as (A & B). split; [exact A|]. intros n q E. specialize (B n q E). cbn [length]. lia. }
  destruct list_eq_dec.
  { pose proof (atoi_fuel (skipn 16 line)) as A. destruct (atoi (skipn 16 line)) as [z|f]; cbn [next]; [apply IH'|]. split; [congruence|intros; discriminate]. }
  destruct list_eq_dec; [split; [discriminate|]; intros m q [= <- <-]; cbn [length]; lia|]. destruct list_eq_dec; [split; [discriminate|]; intros m q [= <- <-]; cbn [length]; lia|]. apply IH'.
Qed.
Lemma body_fuel b inp : read_body b inp <> Bad NoFuel /\ forall t rest, read_body b inp = Got (Some (t, rest)) -> (length rest < length inp)%nat.
Proof.
  unfold read_body. destruct (header_fuel (Datatypes.S (length inp)) 0 inp ltac:(lia)) as (A & B). destruct (read_header _ 0 inp) as [[(n, q)|]|f]; cbn [next]; [|split; [discriminate|intros; discriminate]|split; [congruence|intros; discriminate]].
  specialize (B n q eq_refl). destruct (n =? 0); [split; [discriminate|intros; discriminate]|]. destruct (n =? 2 ^ 64 - 1); [destruct b; (split; [discriminate|intros; discriminate])|].
  destruct (2 ^ 63 <=? n); [split; [discriminate|intros; discriminate]|]. split; [discriminate|]. intros t rest [= <- <-]. rewrite skipn_length. lia.
Qed.
Lemma the_int_fuel o : the_int o <> Bad NoFuel.
Proof. unfold the_int, the_item. destruct o as [j|]; cbn [next]; [|discriminate]. destruct (valueint j); discriminate. Qed.
Lemma the_string_fuel o : the_string o <> Bad NoFuel.
Proof. unfold the_string. destruct o as [[]|]; discriminate. Qed.
Lemma piece_fuel m p : piece m p <> Bad NoFuel.
Proof. unfold piece. destruct m. destruct (4096 <? _); discriminate. Qed.
Lemma next_fuel {A B} (x : got A) (k : A -> got B) : x <> Bad NoFuel -> (forall a, k a <> Bad NoFuel) -> next x k <> Bad NoFuel.
Proof. destruct x; cbn [next]; [auto|congruence]. Qed.
Lemma hover_fuel f : hover_text f <> Bad NoFuel.
Proof.
  unfold hover_text. apply next_fuel; [apply piece_fuel|]. intros m. apply next_fuel; [destruct (d_doc f); [apply piece_fuel|discriminate]|]. intros m2.
  apply next_fuel; [destruct (d_details f); [apply piece_fuel|discriminate]|]. intros; discriminate.
Qed.
Lemma handle_fuel V fs ds req : handle V fs ds req <> Bad NoFuel.
Proof.
  unfold handle. destruct (item (Some req) "method") as [[| |m|m|m|m]|]; try discriminate.
  repeat match goal with
  | |- (if ?b then _ else _) <> _ => destruct b
  | |- Got _ <> _ => discriminate
  | |- next (the_int _) _ <> _ => apply next_fuel; [apply the_int_fuel|intros]
  | |- next (the_string _) _ <> _ => apply next_fuel; [apply the_string_fuel|intros]
  | |- next (hover_text _) _ <> _ => apply next_fuel; [apply hover_fuel|intros]
  | |- match ?x with _ => _ end <> _ => destruct x
  end.
Qed.
Lemma serve_fuel V fuel : forall time ds inp, (length inp < fuel)%nat -> serve V fuel time ds inp <> Bad NoFuel.
Proof.
  induction fuel as [|fuel IH]; intros time ds inp L; [lia|]. cbn [serve]. destruct (body_fuel (s_empty (v_sys V)) inp) as (A & B).
  destruct (read_body _ inp) as [[(t, rest)|]|f]; cbn [next]; [|discriminate|congruence]. specialize (B t rest eq_refl). destruct (s_parse _ t) as [req|]; [|discriminate].
  apply next_fuel; [apply handle_fuel|]. intros ((ds', out), stop). destruct stop; [discriminate|]. apply next_fuel; [apply IH; lia|]. intros; discriminate.
Qed.
Lemma lsp_fuel V time inp : cmd_lsp V time inp <> Bad NoFuel.
Proof. unfold cmd_lsp. apply next_fuel; [apply serve_fuel; lia|]. intros; discriminate. Qed.

(** ** File URIs *)
Lemma hex_char_value v c : hex_char v c -> is_xdigit c = true /\ xvalue c = v.
Proof.
  intros [(L & ->)|(L & [-> | ->])]; unfold is_xdigit, xvalue.
  - split; [lia|]. replace (97 <=? 48 + v) with false by lia. replace (65 <=? 48 + v) with false by lia. lia.
  - split; [lia|]. replace (97 <=? 55 + v) with false by lia. replace (65 <=? 55 + v) with true by lia. lia.
  - split; [lia|]. replace (97 <=? 87 + v) with true by lia. replace (65 <=? 87 + v - 32) with true by lia. lia.
Qed.
Lemma url_other c r : c <> 37 -> url_decode (c :: r) = c :: url_decode r.
Proof.
  intros NE. cbn [url_decode]. destruct c as [|p]; [reflexivity|]. do 6 (destruct p as [p|p|]; try reflexivity). congruence.
Qed.
Lemma spells_decode u p : spells u p -> url_decode u = p.
Proof.
  induction 1 as [|c u p NE _ IH|a b x y u p HX HY _ IH]; [reflexivity|rewrite url_other, IH by exact NE; reflexivity|].
  destruct (hex_char_value _ _ HX) as (A & VX). destruct (hex_char_value _ _ HY) as (B & VY). cbn [url_decode]. now rewrite A, B, VX, VY, IH.
Qed.
Lemma drive_letter a : is_alpha a = true <-> (65 <= a <= 90 \/ 97 <= a <= 122).
Proof. unfold is_alpha. split; lia. Qed.
Definition no_drive (d : list N) : list N := match d with 47 :: ((a :: 58 :: _) as t) => if is_alpha a then t else d | _ => d end.
Lemma no_drive_same d : ~ drive d -> no_drive d = d.
Proof.
  intros ND. unfold no_drive. destruct d as [|c d]; [reflexivity|]. destruct (N.eq_dec c 47) as [-> |NE].
  - destruct d as [|a d]; [reflexivity|]. destruct d as [|e d]; [reflexivity|]. destruct (N.eq_dec e 58) as [-> |NE].
    + destruct (is_alpha a) eqn:A; [|reflexivity]. exfalso. apply ND. exists a, d. split; [reflexivity|]. now apply drive_letter.
    + destruct e as [|q]; [reflexivity|]. do 6 (destruct q as [q|q|]; try reflexivity). congruence.
  - destruct c as [|q]; [reflexivity|]. do 6 (destruct q as [q|q|]; try reflexivity). congruence.
Qed.
Lemma no_drive_tail d : drive d -> no_drive d = tl d.
Proof. intros (a & r & -> & A). cbn. now rewrite (proj2 (drive_letter a) A). Qed.
Lemma uri_spelt u p : spells u p -> Forall (fun c => c <> 0 /\ c < 256) p -> uri_path (chars "file://" ++ u) = no_drive p.
Proof.
  intros S F. unfold uri_path. change (firstn 7 (chars "file://" ++ u)) with (chars "file://"). destruct list_eq_dec as [_|X]; [|congruence].
  change (skipn 7 (chars "file://" ++ u)) with u. rewrite (spells_decode u p S). rewrite (cstr_same p F). reflexivity.
Qed.
Lemma spells_self p : Forall (fun c => c <> 37) p -> spells p p.
Proof. induction 1; constructor; auto. Qed.
Lemma map_same (f : N -> N) l : Forall (fun c => f c = c) l -> map f l = l.
Proof. induction 1; cbn; congruence. Qed.
Lemma uri_back p : Forall (fun c => c <> 37 /\ c <> 92 /\ c <> 0 /\ c < 256) p -> lenN p <= 1015 ->
  (exists r, p = 47 :: r /\ ~ drive p /\ (forall q, r <> 58 :: q)) \/ (exists a r, p = a :: 58 :: r /\ drive (47 :: p)) -> uri_path (file_uri p) = p.
Proof.
  intros F L C. unfold file_uri. assert (M : forall h, Forall (fun c => c <> 92) h -> (length h <= 8)%nat -> map (fun c => if c =? 92 then 47 else c) (firstn 1023 (h ++ p)) = h ++ p).
  { intros h H LH. rewrite firstn_all2 by (rewrite app_length; unfold lenN in L; lia). apply map_same. apply Forall_app. split; [eapply Forall_impl; [|exact H]|eapply Forall_impl; [|exact F]]; cbn; intros c X; destruct (N.eqb_spec c 92); tauto. }
  assert (G : Forall (fun c => c <> 0 /\ c < 256) p) by (eapply Forall_impl; [|exact F]; cbn; tauto). assert (G37 : Forall (fun c => c <> 37) p) by (eapply Forall_impl; [|exact F]; cbn; tauto).
  destruct C as [(r & E & ND & NC)|(a & r & E & D)].
  - assert (X : match p with _ :: 58 :: _ => chars "file:///" | _ => chars "file://" end = chars "file://").
    { subst p. destruct r as [|e r]; [reflexivity|]. destruct (N.eq_dec e 58) as [-> |NE]; [exfalso; eapply NC; reflexivity|]. destruct e as [|q]; [reflexivity|]. do 6 (destruct q as [q|q|]; try reflexivity). congruence. }
    rewrite X, M by (repeat constructor; discriminate || (cbn; lia)). rewrite (uri_spelt p p (spells_self p G37) G). now apply no_drive_same.
  - assert (X : match p with _ :: 58 :: _ => chars "file:///" | _ => chars "file://" end = chars "file:///") by (subst p; reflexivity).
    rewrite X, M by (repeat constructor; discriminate || (cbn; lia)). change (chars "file:///" ++ p) with (chars "file://" ++ (47 :: p)).
    rewrite (uri_spelt (47 :: p) (47 :: p)); [now apply no_drive_tail|apply spells_self; constructor; [discriminate|exact G37]|constructor; [lia|exact G]].
Qed.

(** ** Edits *)
Lemma from_line_none l : forall n, newlines l < N.of_nat n -> from_line n l = [].
Proof.
  induction l as [|c l IH]; intros n L; [destruct n; [cbn in L; lia|reflexivity]|]. destruct n as [|n]; [cbn in L; lia|]. cbn [from_line].
  unfold newlines in *. cbn [filter] in L. rewrite (N.eqb_sym c 10). destruct (10 =? c); apply IH; [rewrite lenN_cons in L; lia|exact L].
Qed.
Lemma from_line_rest n x : from_line n (repeat 10 n ++ x) = x.
Proof. induction n as [|n IH]; [destruct x; reflexivity|]. cbn [repeat app from_line]. exact IH. Qed.

(** ** What the client reads *)
Lemma sent_all V js : (forall j, In j js -> body (v_print V j)) ->
  exists outs, Forall2 (fun j b => carries b (v_print V j)) js outs /\ flat_map (fun j => send_text (v_print V j)) js = concat outs.
Proof.
  induction js as [|j js IH]; intros B; [exists []; split; [constructor|reflexivity]|]. destruct IH as (outs & F & E); [intros; apply B; now right|].
  exists (send_text (v_print V j) :: outs). split; [constructor; [apply sent_carries, B; now left|exact F]|]. cbn [flat_map concat]. now rewrite E.
Qed.
