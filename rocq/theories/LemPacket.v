(** Compiling packets of plain fields. *)
From Coq Require Import Strings.String ZifyBool ZifyNat ZifyN.
From Verif Require Import Base SpecBytes SpecVM ModelVM ModelImage ModelText SpecText ModelNames ModelParse ModelSchema SpecParse LemBase LemStr LemText
  LemParse SpecNames LemNames SpecPacket.

(** ** Words *)
Definition of_word (w : word) : token := {| tk := fst w; tpos := 0; ttext := snd w; tline := 0 |}.
Lemma keyword_word t kw : match_keyword t kw = match_keyword (of_word (word_of t)) kw.
Proof. reflexivity. Qed.
Lemma any_word t kws : match_any t kws = match_any (of_word (word_of t)) kws.
Proof. reflexivity. Qed.
Lemma int_word t : int_name t = int_name (of_word (word_of t)).
Proof. reflexivity. Qed.
Lemma type_word t : type_name t = type_name (of_word (word_of t)).
Proof. reflexivity. Qed.
Lemma prefix_word t a b c : prefix_ops t a b c = prefix_ops (of_word (word_of t)) a b c.
Proof. reflexivity. Qed.
Lemma word_kind t k s : word_of t = (k, s) -> tk t = k.
Proof. intros E. exact (f_equal fst E). Qed.
Lemma word_text t k s : word_of t = (k, s) -> ttext t = s.
Proof. intros E. exact (f_equal snd E). Qed.

Lemma in_forallb {A} (f : A -> bool) l : forallb f l = true -> forall x, In x l -> f x = true.
Proof. intros F. now apply forallb_forall. Qed.
Definition opt_is (o : option N) (n : N) : bool := match o with Some m => m =? n | None => false end.
Definition type_fact (x : N * string) : bool :=
  opt_is (type_name (of_word (ident (snd x)))) (fst x) && negb (match_keyword (of_word (ident (snd x))) "string") && (0x10 <=? fst x) && (fst x <=? 0x1A).
Lemma type_facts ty s : In (ty, s) type_words ->
  type_name (of_word (ident s)) = Some ty /\ match_keyword (of_word (ident s)) "string" = false /\ 0x10 <= ty <= 0x1A /\ is_kind TSelf (of_word (ident s)) = false.
Proof.
  intros I.
  pose proof (in_forallb type_fact type_words ltac:(vm_compute; reflexivity) _ I) as F. unfold type_fact in F. cbn [fst snd] in F.
  rewrite !andb_true_iff in F. destruct F as (((A & B) & C) & D).
  unfold opt_is in A. destruct (type_name _) as [m|]; [|discriminate]. apply N.eqb_eq in A. subst m.
  split; [reflexivity|]. split; [now apply negb_true_iff|]. split; [lia|reflexivity].
Qed.
Lemma order_facts b s : In (b, s) order_words ->
  let t := of_word (ident s) in
  (match_keyword t "big_endian" || match_keyword t "be" = b) /\ (b = false -> match_keyword t "little_endian" || match_keyword t "le" = true).
Proof. intros [E|[E|[E|[E|[]]]]]; injection E as <- <-; vm_compute; auto. Qed.
Lemma top_facts b s : In (b, s) top_order_words ->
  let t := of_word (ident s) in match_keyword t "version" = false /\ match_keyword t "import" = false /\
  (match_keyword t "big_endian" = b) /\ (b = false -> match_keyword t "little_endian" || match_keyword t "le" = true).
Proof. intros [E|[E|[E|[]]]]; injection E as <- <-; vm_compute; auto. Qed.
Lemma counter_facts w s a b c : In (w, s) counter_words ->
  prefix_ops (of_word (ident s)) a b c = Some (match w with 1 => a | 2 => b | _ => c end).
Proof. intros [E|[E|[E|[E|[E|[E|[]]]]]]]; injection E as <- <-; reflexivity. Qed.

Lemma cons_inv {A} (a b : A) l m : a :: l = b :: m -> a = b /\ l = m.
Proof. intros E. injection E. auto. Qed.

(** ** Steps *)
Lemma bind_get {A B} (f : pst -> A) (k : A -> par B) p : pbind (get f) k p = k (f p) p.
Proof. reflexivity. Qed.
Lemma bind_at {B} c (k : bool -> par B) p a x pv o s : pbind (at_kind c) k (going p a x pv o s) = k (is_kind c a) (going p a x pv o s).
Proof. reflexivity. Qed.
Lemma bind_cur {B} (k : token -> par B) p a x pv o s : pbind (get p_cur) k (going p a x pv o s) = k a (going p a x pv o s).
Proof. reflexivity. Qed.
Lemma bind_ret {A B} (v : A) (k : A -> par B) p : pbind (ret v) k p = k v p.
Proof. reflexivity. Qed.
Lemma bind_emit {B} c (k : unit -> par B) p a x pv o s : pbind (emit c) k (going p a x pv o s) = k tt (going p a x pv (o ++ c) s).
Proof. reflexivity. Qed.
Lemma bind_adv {B} (k : unit -> par B) p a b r pv o s : plain b -> pbind advance k (going p a (b :: r) pv o s) = k tt (going p b r a o s).
Proof. intros P. apply bind_ok. now apply advance_going. Qed.
Lemma bind_con {B} c (k : unit -> par B) p a b r pv o s : tk a = c -> plain b ->
  pbind (consume c) k (going p a (b :: r) pv o s) = k tt (going p b r a o s).
Proof. intros K P. apply bind_ok. now apply consume_going. Qed.
Lemma bind_num {B} (k : N -> par B) p a b r pv o s : tk a = TNumber -> plain b ->
  pbind take_u32 k (going p a (b :: r) pv o s) = k (parse_number_u32 (ttext a)) (going p b r a o s).
Proof.
  intros K P. unfold take_u32, take_number, pbind at 1. cbv beta. unfold pbind at 1 2. cbn [get p_cur going set_tok].
  unfold pbind at 1. change (set_tok (b :: r) a pv (set_out o (set_strs s p))) with (going p a (b :: r) pv o s).
  rewrite consume_going by auto. reflexivity.
Qed.
Lemma bind_bind {A B C} (m : par A) (k : A -> par B) (j : B -> par C) p : pbind (pbind m k) j p = pbind m (fun a => pbind (k a) j) p.
Proof. unfold pbind. destruct (m p); reflexivity. Qed.
Lemma is_kind_word k t w : word_of t = w -> is_kind k t = is_kind k (of_word w).
Proof. intros <-. reflexivity. Qed.

(** ** Decorators *)
Definition all_be (l : list bool) (d : deco) : deco := fold_left (fun d b => with_be b d) l d.
Lemma decorators_run E l ws : orders_read order_words l ws -> forall ts f d p a x pv o s t r,
  map word_of ts = ws -> a :: x = ts ++ t :: r -> Forall plain (ts ++ [t]) -> tk t <> TAt -> (length l < f)%nat ->
  decorators E f d (going p a x pv o s) = POk (all_be l d) (going p t r (last ts pv) o s).
Proof.
  induction 1 as [|b w l ws I R IH]; intros ts f d p a x pv o s t r M X P NT L; (destruct f as [|f]; [cbn in L; lia|]).
  - destruct ts; [|discriminate]. injection X as -> ->. cbn [decorators]. rewrite bind_at, is_kind_false by auto. reflexivity.
  - destruct ts as [|t1 [|t2 ts]]; try discriminate. cbn [map] in M. apply cons_inv in M as (WA & M). apply cons_inv in M as (WB & M). injection X as -> ->.
    cbn [app] in P. inversion P as [|? ? P1 P']; subst. inversion P' as [|? ? P2 P'']; subst.
    destruct (order_facts _ _ I) as (F1 & F2). cbv zeta in F1, F2.
    cbn [decorators]. rewrite bind_at, is_kind_true by exact (word_kind _ _ _ WA). cbn [app]. rewrite bind_adv by auto.
    assert (D : forall r', plain r' -> forall y pv', (forall B (k : deco -> par B), pbind (decorator E f d) k (going p t2 (r' :: y) pv' o s) = k (with_be b d) (going p r' y t2 o s))).
    { intros r' PR y pv' B k. unfold decorator. rewrite bind_bind, bind_cur, bind_bind, bind_con; [|exact (word_kind _ _ _ WB)|auto].
      rewrite !(keyword_word t2), WB. change (TIdentifier, chars w) with (ident w). rewrite F1. destruct b.
      - reflexivity.
      - rewrite F2 by reflexivity. reflexivity. }
    destruct ts as [|t3 ts].
    + cbn [app]. rewrite D by (inversion P''; auto). rewrite (IH [] f (with_be b d) p t r t2 o s t r); auto. cbn in L; lia.
    + cbn [app]. rewrite D by (inversion P''; auto). rewrite (IH (t3 :: ts) f (with_be b d) p t3 (ts ++ t :: r) t2 o s t r); auto; [|cbn in L; lia].
      cbn [all_be fold_left]. f_equal. f_equal. rewrite !last_cons. destruct ts; reflexivity.
Qed.
Lemma all_be_last l : all_be l deco0 = with_be (last l false) deco0.
Proof.
  assert (G : forall l b, all_be l (with_be b deco0) = with_be (last l b) deco0).
  { clear l. induction l as [|c l IH]; intros b; [reflexivity|]. cbn [all_be fold_left]. change (with_be c (with_be b deco0)) with (with_be c deco0).
    fold (all_be l (with_be c deco0)). rewrite IH. rewrite last_cons. reflexivity. }
  exact (G l false).
Qed.

(** ** What follows the name *)
Definition shaped (c : content) (d : deco) : deco := match c with Scalar _ (Fixed n) => with_fixed n d | _ => d end.
Definition mk_shape a op sop m u : shape := {| s_array := a; s_arr_op := op; s_str_op := sop; s_max := m; s_until := u |}.
Definition shape_of (c : content) (u : bool) : shape :=
  match c with
  | Scalar _ One => mk_shape None 0 0 255 u
  | Scalar _ (Fixed _) => mk_shape (Some false) 0 0 255 u
  | Scalar _ (Counted w) => mk_shape (Some true) (array_op w) 0 255 u
  | Text m => mk_shape None 0 0 m u
  | CountedText w => mk_shape None 0 (string_op w) 255 u
  end.
Ltac one_token := match goal with
  | M : map word_of ?l = ?w :: _ |- _ => let t := fresh "t" in let W := fresh "W" in
      destruct l as [|t l]; [discriminate M|]; cbn [map] in M; apply cons_inv in M as (W & M)
  | M : map word_of ?l = [] |- _ => destruct l as [|? ?]; [clear M|discriminate M]
  end.
Ltac split_plain := repeat match goal with
  | P : Forall plain (_ :: _) |- _ => let A := fresh "PL" in inversion P as [|? ? A P']; subst; clear P; rename P' into P
  | P : Forall plain [] |- _ => clear P
  end.
Lemma u32_of d n : literal d n -> n < 2 ^ 32 -> parse_number_u32 d = n.
Proof. intros L B. unfold parse_number_u32. rewrite (acc_number_spec 32 d n) by (lia || exact L). now apply N.mod_small. Qed.

Lemma shape_run c a b : content_read c a b -> forall d ty bs p y x pv o s t r, d_fixed d = None -> d_count d = None ->
  [word_of ty] = a -> map word_of bs = b -> y :: x = bs ++ t :: r -> Forall plain (bs ++ [t]) -> tk t = TSemicolon ->
  exists u, forall B (k : deco * shape -> par B),
    pbind (field_shape ty d) k (going p y x pv o s) = k (shaped c d, shape_of c u) (going p t r (last bs pv) o s).
Proof.
  intros R d ty bs p y x pv o s t r DF DC WT M X P KT.
  assert (MT : forall kw, match_keyword t kw = false) by (intros kw; unfold match_keyword; rewrite is_kind_false by congruence; reflexivity).
  assert (NS : forall tyw, In tyw type_words -> word_of ty = ident (snd tyw) -> match_keyword ty "string" = false).
  { intros (ty' & w) I E. rewrite keyword_word, E. now apply (type_facts ty' w). }
  destruct R as [ty' w I|ty' w dg n I L LT|ty' w cw cs I IC| |dg n L LT|un dg n L LT|cw cs IC]; apply cons_inv in WT as (WT & _);
    repeat one_token; cbn [app] in X, P; injection X as -> ->; split_plain.
  - exists false. intros B k. unfold field_shape. rewrite bind_bind, bind_at, is_kind_false by congruence. rewrite bind_bind, bind_ret. cbv zeta. cbn [fst snd].
    rewrite bind_bind, bind_cur, MT, (NS _ I WT). reflexivity.
  - exists false. intros B k. unfold field_shape. rewrite bind_bind, bind_at, is_kind_true by exact (word_kind _ _ _ W).
    rewrite bind_bind, bind_bind, bind_adv by auto. rewrite bind_bind, bind_at, is_kind_false by (rewrite (word_kind _ _ _ W0); discriminate).
    rewrite bind_bind, bind_num; [|exact (word_kind _ _ _ W0)|auto]. rewrite bind_bind, bind_con; [|exact (word_kind _ _ _ W1)|auto].
    rewrite bind_ret. cbv zeta. cbn [fst snd]. rewrite bind_bind, bind_cur, MT, (NS _ I WT). rewrite (word_text _ _ _ W0), (u32_of _ _ L LT). reflexivity.
  - exists false. intros B k. unfold field_shape. rewrite bind_bind, bind_at, is_kind_true by exact (word_kind _ _ _ W).
    rewrite bind_bind, bind_bind, bind_adv by auto. rewrite bind_bind, bind_at, is_kind_true by exact (word_kind _ _ _ W0).
    rewrite bind_bind, bind_adv by auto. rewrite bind_ret. cbv zeta. cbn [fst snd]. rewrite bind_bind, bind_cur.
    rewrite (keyword_word t2), W1. change (match_keyword (of_word (ident "prefix")) "prefix") with true. cbv iota.
    rewrite bind_bind, bind_adv by auto. rewrite bind_bind, bind_cur. rewrite bind_bind, bind_con; [|exact (word_kind _ _ _ W2)|auto].
    rewrite DF, DC. cbn [some negb andb]. rewrite prefix_word, W2, (counter_facts _ _ _ _ _ IC). reflexivity.
  - exists false. intros B k. unfold field_shape. rewrite bind_bind, bind_at, is_kind_false by congruence. rewrite bind_bind, bind_ret. cbv zeta. cbn [fst snd].
    rewrite bind_bind, bind_cur, MT. rewrite (keyword_word ty), WT. change (match_keyword (of_word (ident "string")) "string") with true. cbv iota.
    rewrite bind_bind, MT, bind_ret. rewrite bind_bind, bind_cur, MT. reflexivity.
  - exists false. intros B k. unfold field_shape. rewrite bind_bind, bind_at, is_kind_false by (rewrite (word_kind _ _ _ W); discriminate).
    rewrite bind_bind, bind_ret. cbv zeta. cbn [fst snd].
    rewrite bind_bind, bind_cur. rewrite (keyword_word t0), W. change (match_keyword (of_word (ident "max")) "prefix") with false. cbv iota.
    rewrite (keyword_word ty), WT. change (match_keyword (of_word (ident "string")) "string") with true. cbv iota.
    rewrite bind_bind, (keyword_word t0), W. change (match_keyword (of_word (ident "max")) "until") with false. cbv iota. rewrite bind_ret, bind_bind, bind_cur.
    rewrite (keyword_word t0), W. change (match_keyword (of_word (ident "max")) "max") with true. cbv iota.
    rewrite bind_bind, bind_bind, bind_adv by auto. rewrite bind_bind, bind_num; [|exact (word_kind _ _ _ W0)|auto]. rewrite bind_ret.
    rewrite (word_text _ _ _ W0), (u32_of _ _ L) by (change (2 ^ 32) with 4294967296; change (2 ^ 16) with 65536 in LT; lia).
    rewrite N.mod_small by (change (2 ^ 16) with 65536 in LT; lia). reflexivity.
  - exists true. intros B k. unfold field_shape. rewrite bind_bind, bind_at, is_kind_false by (rewrite (word_kind _ _ _ W); discriminate).
    rewrite bind_bind, bind_ret. cbv zeta. cbn [fst snd].
    rewrite bind_bind, bind_cur. rewrite (keyword_word t0), W. change (match_keyword (of_word (ident "until")) "prefix") with false. cbv iota.
    rewrite (keyword_word ty), WT. change (match_keyword (of_word (ident "string")) "string") with true. cbv iota.
    rewrite bind_bind, (keyword_word t0), W. change (match_keyword (of_word (ident "until")) "until") with true. cbv iota.
    rewrite bind_bind, bind_adv by auto. rewrite bind_bind, bind_con; [|exact (word_kind _ _ _ W0)|auto]. rewrite bind_ret, bind_bind, bind_cur.
    rewrite (keyword_word t2), W1. change (match_keyword (of_word (ident "max")) "max") with true. cbv iota.
    rewrite bind_bind, bind_bind, bind_adv by auto. rewrite bind_bind, bind_num; [|exact (word_kind _ _ _ W2)|auto]. rewrite bind_ret.
    rewrite (word_text _ _ _ W2), (u32_of _ _ L) by (change (2 ^ 32) with 4294967296; change (2 ^ 16) with 65536 in LT; lia).
    rewrite N.mod_small by (change (2 ^ 16) with 65536 in LT; lia). reflexivity.
  - exists false. intros B k. unfold field_shape. rewrite bind_bind, bind_at, is_kind_false by (rewrite (word_kind _ _ _ W); discriminate).
    rewrite bind_bind, bind_ret. cbv zeta. cbn [fst snd].
    rewrite bind_bind, bind_cur. rewrite (keyword_word t0), W. change (match_keyword (of_word (ident "prefix")) "prefix") with true. cbv iota.
    rewrite bind_bind, bind_adv by auto. rewrite bind_bind, bind_cur. rewrite bind_bind, bind_con; [|exact (word_kind _ _ _ W0)|auto].
    cbn [andb]. rewrite (keyword_word ty), WT. change (match_keyword (of_word (ident "string")) "string") with true. cbv iota.
    rewrite prefix_word, W0, (counter_facts _ _ _ _ _ IC). reflexivity.
Qed.

(** ** A field *)
Lemma fields_add {B} n (k : unit -> par B) p a x pv o s : Forall text (p_fields p) -> ~ In n (p_fields p) ->
  pbind (fun p =>
           let (fs, _) := strtab_add (p_fields p) n in
           let p' := set_struct (p_sname p) fs p in
           POk tt (if lenN fs =? lenN (p_fields p) then set_err p' else p')) k (going p a x pv o s) =
  k tt (going (set_struct (p_sname p) (p_fields p ++ [n]) p) a x pv o s).
Proof.
  intros F NI. apply bind_ok. cbn [going p_fields p_sname set_tok set_out set_strs].
  pose proof (table1_eq (p_fields p) n F) as T. unfold table1 in T. destruct (strtab_add (p_fields p) n) as [fs i]. cbn [fst] in T.
  destruct in_dec as [I|I]; [contradiction|]. subst fs. rewrite lenN_app. change (lenN [n]) with 1.
  destruct (N.eqb_spec (lenN (p_fields p) + 1) (lenN (p_fields p))) as [E|E]; [lia|]. reflexivity.
Qed.
Lemma bind_name {B} n (k : N -> par B) p a x pv o s : Forall text s -> lenN (table1 s n) <= 65536 ->
  pbind (add_name n) k (going p a x pv o s) = k (index_of (table1 s n) n) (going p a x pv o (table1 s n)).
Proof. intros F L. apply bind_ok. unfold add_name. cbn [going p_strs set_tok set_out set_strs]. now rewrite (proj1 (add_index s n F L)). Qed.
Lemma bind_when {B} (k : unit -> par B) (m : par unit) p : pbind (when false m) k p = k tt p.
Proof. reflexivity. Qed.

Definition type_of (c : content) : N := match c with Scalar ty _ => ty | _ => 0 end.
Definition body_code (c : content) (k : N) : list N :=
  match c with
  | Scalar ty _ => [ty] ++ le2 k
  | Text m => [0x30] ++ le2 k ++ le2 m
  | CountedText _ => []
  end.
Lemma field_code id f u : code (field_instrs id f) =
  (if f_big f then [0x02] else []) ++ open_code (shaped (f_content f) (with_be (f_big f) deco0)) (shape_of (f_content f) u) (id (f_name f)) ++
  body_code (f_content f) (id (f_name f)) ++ (if some (s_array (shape_of (f_content f) u)) then [0x38] else []) ++ (if f_big f then [0x01] else []).
Proof.
  unfold field_instrs, code. destruct (f_content f) as [ty [|n|w]|m|w]; destruct (f_big f);
    cbn -[le2 le4 bytes_of]; rewrite ?app_nil_r, <- ?app_assoc; try reflexivity.
  all: try (rewrite le4_bytes; reflexivity).
  all: unfold open_code; cbn [shape_of mk_shape s_arr_op s_str_op s_array]; try (destruct (N.eqb_spec (array_op w) 0) as [Z|_];
    [unfold array_op in Z; destruct w as [|[[]|[]|]]; discriminate Z|]); try (destruct (N.eqb_spec (string_op w) 0) as [Z|_];
    [unfold string_op in Z; destruct w as [|[[]|[]|]]; discriminate Z|]); reflexivity.
Qed.

Lemma content_head c a b : content_read c a b -> exists s, a = [ident s] /\
  match c with Scalar ty _ => In (ty, s) type_words | _ => s = "string"%string end.
Proof. destruct 1; eexists; (split; [reflexivity|]); auto. Qed.
Lemma shaped_be c b : d_be (shaped c (with_be b deco0)) = b.
Proof. destruct c as [ty [|n|w]|m|w]; reflexivity. Qed.
Lemma shaped_rest c b : let d := shaped c (with_be b deco0) in
  d_const d = None /\ has_trans d = false /\ d_range d = None /\ d_crc d = None /\ d_expr d = false.
Proof. destruct c as [ty [|n|w]|m|w]; repeat split. Qed.

(** No structure has the name of a type *)
Definition plain_types (p : pst) : Prop :=
  forall w, In w (chars "string" :: map (fun x => chars (snd x)) type_words) -> find_struct (p_structs p) w = None.
Lemma no_structs p : p_structs p = [] -> plain_types p.
Proof. intros E w _. now rewrite E. Qed.
Lemma rest_run E f a b : content_read (f_content f) a b -> forall ts p y x pv o s t r,
  map word_of ts = a ++ [(TIdentifier, f_name f)] ++ b ++ [sign TSemicolon ";"] ->
  y :: x = ts ++ t :: r -> Forall plain (ts ++ [t]) ->
  p_bitmode p = false -> plain_types p -> p_enums p = [] -> ~ In (f_name f) (p_fields p) -> Forall text (p_fields p) ->
  Forall text s -> lenN (table1 s (f_name f)) <= 65536 ->
  field_rest E (with_be (f_big f) deco0) (going p y x pv o s) =
  POk tt (going (set_struct (p_sname p) (p_fields p ++ [f_name f]) p) t r (last ts pv)
    (o ++ code (field_instrs (index_of (table1 s (f_name f))) f)) (table1 s (f_name f))).
Proof.
  intros R ts p y x pv o s t r M X P BM PS PE NI FT ST SL.
  destruct (content_head _ _ _ R) as (w & -> & CW). cbn [app] in M. one_token. one_token.
  apply map_eq_app in M as (bs & ts' & -> & MB & M). one_token. one_token. cbn [app] in X, P. injection X as -> ->.
  rewrite <- app_assoc in P |- *. cbn [app] in P |- *. pose proof (Forall_inv P) as P0. apply Forall_inv_tail in P. pose proof (Forall_inv P) as P1. apply Forall_inv_tail in P. rename P into P''.
  assert (PP : Forall plain (bs ++ [t2]) /\ plain t) by (apply Forall_app in P'' as (? & P''); inversion P'' as [|? ? P2 P3]; inversion P3; subst; split; auto; apply Forall_app; auto).
  destruct PP as (PB & PT).
  unfold field_rest. rewrite !bind_at. rewrite (is_kind_false TSemicolon) by (rewrite (word_kind _ _ _ W); discriminate).
  cbn [d_alone with_be deco0 orb andb]. change (trans_code (with_be (f_big f) deco0)) with (@nil N). rewrite bind_emit, app_nil_r.
  rewrite bind_cur, bind_con; [|exact (word_kind _ _ _ W)|auto]. rewrite bind_cur.
  rewrite (is_kind_false TSelf) by (rewrite (word_kind _ _ _ W0); discriminate).
  assert (exists z zs, bs ++ t2 :: t :: r = z :: zs /\ plain z /\ is_kind TColon z = false) as (z & zs & EZ & PZ & CZ).
  { destruct bs as [|z zs]; [exists t2, (t :: r)|exists z, (zs ++ t2 :: t :: r)]; (split; [reflexivity|]).
    - split; [inversion PB; auto|]. apply is_kind_false. rewrite (word_kind _ _ _ W1). discriminate.
    - split; [inversion PB; auto|]. apply is_kind_false. cbn [map] in MB. intros K.
      assert (KK : fst (word_of z) = TColon) by exact K. clear K. destruct R; cbn in MB; try discriminate MB; apply cons_inv in MB as (WW & _); rewrite WW in KK; discriminate KK. }
  rewrite EZ. rewrite bind_con; [|exact (word_kind _ _ _ W0)|auto].
  rewrite (word_text _ _ _ W0), fields_add by auto. rewrite bind_name by auto. rewrite bind_at, CZ. rewrite bind_ret.
  set (p1 := set_struct _ _ p). set (s1 := table1 s (f_name f)). set (k := index_of s1 (f_name f)).
  destruct (shape_run _ _ _ R (with_be (f_big f) deco0) t0 bs p1 z zs t1 o s1 t2 (t :: r) eq_refl eq_refl ltac:(now rewrite W) MB (eq_sym EZ) PB (word_kind _ _ _ W1)) as (u & SH).
  rewrite SH. cbv zeta. cbn [fst snd]. rewrite (field_code _ f u). fold k. rewrite shaped_be.
  set (c := f_content f) in *. destruct (shaped_rest c (f_big f)) as (D1 & D2 & D3 & D4 & D5). cbv zeta in *.
  set (d := shaped c (with_be (f_big f) deco0)) in *.
  assert (S0 : some (s_array (shape_of c u)) && match_keyword t0 "string" = false).
  { rewrite keyword_word, W. destruct c as [ty x0|m|w']; [|reflexivity|reflexivity]. destruct (type_facts _ _ CW) as (_ & -> & _). apply andb_false_r. }
  rewrite S0. cbn [andb]. rewrite bind_when.
  assert (EM : forall B (kk : unit -> par B) b c q, pbind (when b (emit c)) kk (going p1 t2 (t :: r) (last bs t1) q s1) = kk tt (going p1 t2 (t :: r) (last bs t1) (q ++ (if b then c else [])) s1)).
  { intros B kk [] c0 q; [reflexivity|]. cbn [when]. rewrite app_nil_r. reflexivity. }
  rewrite EM, bind_emit, D1.
  set (q := (o ++ _) ++ _).
  assert (BODY : forall B (kk : bool -> par B), pbind
      (let% sd := get (fun p0 => find_struct (p_structs p0) (ttext t0)) in
       let% ed := get (fun p0 => find_enum (p_enums p0) (ttext t0)) in
       match sd, ed with
       | Some code, _ => struct_field t0 t1 d 0 k code
       | None, Some e => enum_field E d 0 k e ;; ret true
       | None, None => if match_keyword t0 "string" then string_field d 0 k (shape_of c u) ;; ret true else basic_field E t0 d 0 k
       end) kk (going p1 t2 (t :: r) (last bs t1) q s1) = kk true (going p1 t2 (t :: r) (last bs t1) (q ++ body_code c k) s1)).
  { intros B kk. rewrite bind_bind, bind_get, bind_bind, bind_get.
    change (p_structs (going p1 t2 (t :: r) (last bs t1) q s1)) with (p_structs p). change (p_enums (going p1 t2 (t :: r) (last bs t1) q s1)) with (p_enums p).
    rewrite (word_text _ _ _ W), PS, PE; [|clear - CW; destruct c as [ty x|m|cw]; [right; apply in_map_iff; exists (ty, w); auto|left; now subst w|left; now subst w]].
    cbn [find_enum find]. rewrite keyword_word, W.
    destruct c as [ty x|m|cw].
    - destruct (type_facts _ _ CW) as (TN & -> & _). unfold basic_field. rewrite bind_bind, bind_get.
      change (p_bitmode (going p1 t2 (t :: r) (last bs t1) q s1)) with (p_bitmode p). rewrite BM. cbv zeta. cbn [andb].
      change (0 <? 0) with false. cbv iota. rewrite type_word, W, TN, D4, D5, D3. rewrite bind_bind, bind_bind, bind_emit. cbv beta. rewrite bind_ret. reflexivity.
    - subst w. change (match_keyword (of_word (ident "string")) "string") with true. cbv iota. unfold string_field. rewrite D2, D3, D4.
      rewrite !bind_bind. change (0 <? 0) with false. change (s_str_op (shape_of (Text m) u) =? 0) with true. cbn [when some].
      repeat (rewrite ?bind_bind, bind_ret; cbv beta). rewrite bind_bind.
      change (some (s_array (shape_of (Text m) u)) && negb (s_until (shape_of (Text m) u))) with false. cbn [when].
      repeat (rewrite ?bind_bind, bind_ret; cbv beta). rewrite bind_emit. cbv beta. rewrite bind_ret. reflexivity.
    - subst w. change (match_keyword (of_word (ident "string")) "string") with true. cbv iota. unfold string_field. rewrite D2, D3, D4.
      rewrite !bind_bind. change (0 <? 0) with false. cbn [when some].
      repeat (rewrite ?bind_bind, bind_ret; cbv beta).
      assert (Z : (s_str_op (shape_of (CountedText cw) u) =? 0) = false) by (cbn; unfold string_op; destruct cw as [|[[]|[]|]]; reflexivity).
      rewrite Z. cbn [when]. repeat (rewrite bind_ret; cbv beta). cbn [body_code]. now rewrite app_nil_r. }
  rewrite BODY. cbn [when]. rewrite EM. rewrite bind_con; [|exact (word_kind _ _ _ W1)|auto].
  unfold q. replace (last (t0 :: t1 :: bs ++ [t2]) pv) with t2 by (change (t0 :: t1 :: bs ++ [t2]) with ((t0 :: t1 :: bs) ++ [t2]); now rewrite last_last).
  rewrite <- !app_assoc. destruct (f_big f); cbn [when]; [|rewrite ?app_nil_r; reflexivity].
  match goal with |- emit ?c (going ?p ?a ?x ?v ?o ?s) = _ => change (emit c (going p a x v o s)) with (POk tt (going p a x v (o ++ c) s)) end.
  now rewrite <- !app_assoc.
Qed.

Lemma last_two {A} (a b : list A) : forall d, last (a ++ b) d = last b (last a d).
Proof. induction a as [|x a IH]; intros d; [reflexivity|]. cbn [app]. now rewrite !last_cons, IH. Qed.
Lemma orders_len ws l r : orders_read ws l r -> length r = (2 * length l)%nat.
Proof. induction 1; cbn [length]; lia. Qed.
Lemma order_at ws l r : orders_read ws l r -> match r with [] => True | w :: _ => fst w = TAt end.
Proof. destruct 1; auto. Qed.
Lemma bind_skip {B} f (k : unit -> par B) p a x pv o s : tk a <> TDoc -> pbind (skip_docs (S f)) k (going p a x pv o s) = k tt (going p a x pv o s).
Proof. intros K. apply bind_ok. cbn [skip_docs]. rewrite bind_at, is_kind_false by auto. reflexivity. Qed.

Lemma field_run E f ws : field_read f ws -> forall fuel ts p y x pv o s t r,
  map word_of ts = ws -> y :: x = ts ++ t :: r -> Forall plain (ts ++ [t]) -> (length (f_orders f) < fuel)%nat ->
  p_err p = false -> p_bitmode p = false -> plain_types p -> p_enums p = [] -> ~ In (f_name f) (p_fields p) -> Forall text (p_fields p) ->
  Forall text s -> lenN (table1 s (f_name f)) <= 65536 ->
  parse_field E (S fuel) (going p y x pv o s) =
  POk tt (going (set_struct (p_sname p) (p_fields p ++ [f_name f]) p) t r (last ts pv)
    (o ++ code (field_instrs (index_of (table1 s (f_name f))) f)) (table1 s (f_name f))).
Proof.
  intros (os & a & b & OR & CR & ->) fuel ts p y x pv o s t r M X P L ER BM PS PE NI FT ST SL.
  apply map_eq_app in M as (t1 & t2 & -> & M1 & M2). destruct (content_head _ _ _ CR) as (w & Ea & _).
  destruct t2 as [|h t2]; [rewrite Ea in M2; discriminate M2|].
  assert (KH : tk h = TIdentifier) by (rewrite Ea in M2; cbn [map app] in M2; apply cons_inv in M2 as (W & _); exact (word_kind _ _ _ W)).
  assert (KY : tk y = TAt \/ tk y = TIdentifier).
  { destruct t1 as [|z t1]; [injection X as -> _; auto|]. injection X as -> _. left. pose proof (order_at _ _ _ OR) as K. rewrite <- M1 in K. exact K. }
  cbn [parse_field]. rewrite bind_get. change (p_err (going p y x pv o s)) with (p_err p). rewrite ER.
  destruct fuel as [|fuel]; [lia|]. rewrite bind_skip by (destruct KY as [K|K]; rewrite K; discriminate).
  rewrite bind_get. change (p_cur (going p y x pv o s)) with y.
  assert (EQ : forall (m1 m2 m3 : par unit), match tk y with TSwitch => m1 | TIf => m2 | _ => m3 end = m3) by (intros; destruct KY as [K|K]; now rewrite K).
  rewrite EQ. clear EQ.
  rewrite (bind_ok (decorators E (S fuel) deco0) _ _ (all_be (f_orders f) deco0) (going p h (t2 ++ t :: r) (last t1 pv) o s)).
  - rewrite all_be_last. fold (f_big f). rewrite (rest_run E f a b CR (h :: t2) p h (t2 ++ t :: r) (last t1 pv) o s t r); auto.
    + now rewrite last_two.
    + rewrite <- app_assoc in P. apply Forall_app in P. apply P.
  - apply (decorators_run E _ os OR t1); auto; try (rewrite KH; discriminate).
    + now rewrite X, <- app_assoc.
    + rewrite <- app_assoc in P. apply Forall_app in P as (A & Q). apply Forall_app. split; auto. constructor; auto. exact (Forall_inv Q).
Qed.

Lemma id_ext id id' f : id (f_name f) = id' (f_name f) -> field_instrs id f = field_instrs id' f.
Proof. intros E. unfold field_instrs. now rewrite E. Qed.
Lemma field_len f ws : field_read f ws -> (2 * length (f_orders f) + 3 <= length ws)%nat.
Proof.
  intros (os & a & b & OR & CR & ->). destruct (content_head _ _ _ CR) as (w & -> & _). rewrite !app_length, (orders_len _ _ _ OR). cbn [length]. lia.
Qed.
Lemma field_head f ws : field_read f ws -> exists w r, ws = w :: r /\ (fst w = TAt \/ fst w = TIdentifier).
Proof.
  intros (os & a & b & OR & CR & ->). destruct (content_head _ _ _ CR) as (w & -> & _). pose proof (order_at _ _ _ OR) as K.
  destruct os as [|q os]; cbn [app]; eauto 6.
Qed.

Lemma fields_run E fs ws : fields_read fs ws -> forall fuel ts p y x pv o s t r,
  map word_of ts = ws -> y :: x = ts ++ t :: r -> Forall plain (ts ++ [t]) -> tk t = TRbrace -> (length ts < fuel)%nat ->
  p_err p = false -> p_bitmode p = false -> p_structs p = [] -> p_enums p = [] -> NoDup (p_fields p ++ map f_name fs) ->
  Forall text (p_fields p ++ map f_name fs) -> Forall text s -> lenN (table s (map f_name fs)) <= 65536 ->
  block_loop E fuel (going p y x pv o s) =
  POk tt (going (set_struct (p_sname p) (p_fields p ++ map f_name fs) p) t r (last ts pv)
    (o ++ code (flat_map (field_instrs (index_of (table s (map f_name fs)))) fs)) (table s (map f_name fs))).
Proof.
  induction 1 as [|f fs ws wr FR R IH]; intros fuel ts p y x pv o s t r M X P KT L ER BM PS PE ND FT ST SL; (destruct fuel as [|fuel]; [lia|]).
  - destruct ts; [|discriminate]. injection X as -> ->. cbn [block_loop]. rewrite bind_cur. rewrite is_kind_true by auto. cbn. rewrite !app_nil_r.
    destruct p. reflexivity.
  - apply map_eq_app in M as (t1 & t2 & -> & M1 & M2). pose proof (field_len _ _ FR) as FL. rewrite <- M1, map_length in FL.
    destruct (field_head _ _ FR) as (w & wt & EW & KW). rewrite app_length in L.
    assert (KY : tk y = TAt \/ tk y = TIdentifier).
    { destruct t1 as [|z t1]; [rewrite EW in M1; discriminate M1|]. injection X as -> _. rewrite EW in M1. apply cons_inv in M1 as (<- & _). exact KW. }
    cbn [block_loop]. rewrite bind_cur, bind_get. change (p_err (going p y x pv o s)) with (p_err p). rewrite ER.
    rewrite !is_kind_false by (destruct KY as [-> | ->]; discriminate). cbn [orb].
    cbn [map] in ND, FT, SL |- *. set (T := table s (f_name f :: map f_name fs)) in *.
    change (table s (f_name f :: map f_name fs)) with (table (table1 s (f_name f)) (map f_name fs)) in T.
    assert (SL1 : lenN (table1 s (f_name f)) <= 65536) by (pose proof (table_len (table1 s (f_name f)) (map f_name fs)); unfold T in SL; lia).
    assert (TX : text (f_name f)) by (apply Forall_app in FT as (_ & FT); exact (Forall_inv FT)).
    assert (FTP : Forall text (p_fields p)) by (apply Forall_app in FT as (FT & _); exact FT).
    assert (NI : ~ In (f_name f) (p_fields p)) by (intros I; apply NoDup_remove_2 in ND; apply ND; apply in_or_app; auto).
    assert (exists h hs, t2 ++ t :: r = h :: hs /\ (t2 = [] -> h = t) /\ plain h /\ Forall plain (t1 ++ [h])) as (h & hs & EH & _ & PH & PT1).
    { rewrite <- app_assoc in P. apply Forall_app in P as (A & B).
      destruct t2 as [|h hs]; [exists t, r|exists h, (hs ++ t :: r)]; (split; [reflexivity|]); (split; [auto; discriminate|]); pose proof (Forall_inv B) as PH; (split; [exact PH|]);
      apply Forall_app; split; auto. }
    destruct fuel as [|fuel]; [lia|].
    rewrite (bind_ok (parse_field E (S fuel)) _ _ tt (going (set_struct (p_sname p) (p_fields p ++ [f_name f]) p) h hs (last t1 pv)
      (o ++ code (field_instrs (index_of (table1 s (f_name f))) f)) (table1 s (f_name f)))).
    + rewrite (IH (S fuel) t2 (set_struct (p_sname p) (p_fields p ++ [f_name f]) p) h hs _ _ _ t r); auto.
      * f_equal. cbn [p_sname p_fields set_struct]. rewrite <- !app_assoc. cbn [app]. rewrite last_two. fold T.
        cbn [flat_map]. unfold code at 2 3. rewrite flat_map_app. fold (code (field_instrs (index_of T) f)).
        rewrite (id_ext (index_of (table1 s (f_name f))) (index_of T)); [reflexivity|].
        destruct (table_app (map f_name fs) (table1 s (f_name f))) as (q & Eq). unfold T. rewrite Eq. symmetry. apply index_in. exact (proj2 (add_index s (f_name f) ST SL1)).
      * rewrite <- app_assoc in P. apply Forall_app in P. apply P.
      * lia.
      * cbn [p_fields set_struct]. rewrite <- app_assoc. exact ND.
      * cbn [p_fields set_struct]. rewrite <- app_assoc. exact FT.
      * now apply table1_text.
    + apply (field_run E f ws FR); auto using no_structs; [now rewrite X, <- app_assoc, EH|lia].
Qed.

(** ** The packet *)
Lemma bind_end {B} (k : unit -> par B) c p a e pv o s : tk a = c -> tk e = TEof ->
  pbind (consume c) k (going p a [e] pv o s) = k tt (going p e [e] a o s).
Proof.
  intros A K. apply bind_ok. unfold consume. rewrite bind_at, is_kind_true by auto.
  unfold advance. change (p_toks (going p a [e] pv o s)) with [e]. unfold next_token. rewrite K. reflexivity.
Qed.
Lemma table_in ns : forall t x, Forall text t -> Forall text ns -> (In x t \/ In x ns) -> In x (table t ns).
Proof.
  induction ns as [|n r IH]; intros t x T N I; [destruct I as [I|[]]; exact I|]. cbn [table fold_left]. fold (table (table1 t n) r).
  inversion N; subst. apply IH; auto; [now apply table1_text|].
  rewrite table1_eq by auto. destruct I as [I|[->|I]]; auto; left; destruct (in_dec _ _ t); auto; apply in_or_app; cbn; auto.
Qed.
Lemma bind_write {B} (k : unit -> par B) p a x pv o m c s v : lenN v = lenN m ->
  pbind (write_at (lenN o) v) k (going p a x pv (o ++ m ++ c) s) = k tt (going p a x pv (o ++ v ++ c) s).
Proof.
  intros L. apply bind_ok. unfold write_at, upd_p. change (p_out (going p a x pv (o ++ m ++ c) s)) with (o ++ m ++ c).
  destruct (N.ltb_spec (lenN (o ++ m ++ c)) (lenN o + lenN v)) as [Z|_]; [rewrite !lenN_app in Z; lia|].
  f_equal. replace (firstn (N.to_nat (lenN o)) (o ++ m ++ c)) with o; [|unfold lenN; rewrite Nat2N.id, firstn_app, firstn_all, Nat.sub_diag; cbn; now rewrite app_nil_r].
  replace (skipn (N.to_nat (lenN o + lenN v)) (o ++ m ++ c)) with c; [reflexivity|].
  unfold lenN in *. rewrite app_assoc. replace (N.to_nat (N.of_nat (length o) + N.of_nat (length v))) with (length (o ++ m)) by (rewrite app_length; lia).
  now rewrite skipn_app, skipn_all, Nat.sub_diag.
Qed.
Lemma packet_run E fs ws : fields_read fs ws -> forall fuel ts p nt lb rb e pv o s n,
  map word_of ts = ws -> word_of nt = (TIdentifier, n) -> tk lb = TLbrace -> tk rb = TRbrace -> tk e = TEof ->
  Forall plain ts -> (length ts + 1 < fuel)%nat ->
  p_err p = false -> p_bitmode p = false -> p_structs p = [] -> p_enums p = [] -> NoDup (map f_name fs) ->
  Forall text (map f_name fs) -> Forall text s -> lenN (table s (map f_name fs ++ [n])) <= 65536 ->
  let T := table s (map f_name fs ++ [n]) in
  parse_packet E fuel (going p nt (lb :: ts ++ [rb; e]) pv o s) =
  POk tt (going (set_struct (p_sname p) [] p) e [e] rb (o ++ code (ins 0x07 [index_of T n] [] :: flat_map (field_instrs (index_of T)) fs)) T).
Proof.
  intros R fuel ts p nt lb rb e pv o s n M WN KL KR KE P L ER BM PS PE ND FT ST SL T. unfold parse_packet.
  assert (PB : plain lb) by (split; congruence). assert (PR : plain rb) by (split; congruence).
  assert (exists z zs, ts ++ [rb; e] = z :: zs /\ plain z) as (z & zs & EZ & PZ).
  { destruct ts as [|z zs]; [exists rb, [e]|exists z, (zs ++ [rb; e])]; (split; [reflexivity|]); auto. exact (Forall_inv P). }
  rewrite bind_cur, bind_con; [|exact (word_kind _ _ _ WN)|auto]. rewrite (word_text _ _ _ WN).
  rewrite bind_get. change (p_structs (going p lb (ts ++ [rb; e]) nt o s)) with (p_structs p). change (p_enums (going p lb (ts ++ [rb; e]) nt o s)) with (p_enums p).
  rewrite PS, PE. cbn [find_struct find_enum find option_map some orb]. rewrite bind_when. unfold here. rewrite bind_get, bind_emit.
  change (p_out (going p lb (ts ++ [rb; e]) nt o s)) with o. rewrite bind_at, is_kind_false by congruence.
  rewrite bind_bind. unfold upd_p at 1. unfold pbind at 1.
  change (set_struct (p_sname (going p lb (ts ++ [rb; e]) nt (o ++ [7] ++ le2 65535) s)) [] (going p lb (ts ++ [rb; e]) nt (o ++ [7] ++ le2 65535) s))
    with (going (set_struct (p_sname p) [] p) lb (ts ++ [rb; e]) nt (o ++ [7] ++ le2 65535) s).
  set (p1 := set_struct (p_sname p) [] p). destruct fuel as [|fuel]; [lia|]. rewrite bind_bind. cbn [parse_block]. rewrite bind_bind, EZ, bind_con by auto.
  rewrite bind_bind.
  assert (SF : lenN (table s (map f_name fs)) <= 65536) by (rewrite table_snoc in SL; pose proof (table_len (table s (map f_name fs)) [n]); lia).
  rewrite (bind_ok (block_loop E fuel) _ _ tt (going (set_struct (p_sname p1) (p_fields p1 ++ map f_name fs) p1) rb [e] (last ts lb)
     ((o ++ [7] ++ le2 65535) ++ code (flat_map (field_instrs (index_of (table s (map f_name fs)))) fs)) (table s (map f_name fs)))).
  2:{ apply (fields_run E fs ws R); auto; [apply Forall_app; auto|lia]. }
  rewrite bind_end by auto. unfold upd_p, pbind at 1.
  set (o2 := _ ++ code _). set (s2 := table s _).
  match goal with |- pbind _ _ ?q = _ => change q with (going p1 e [e] rb o2 s2) end.
  assert (TX : Forall text s2) by (apply table_text; auto).
  assert (ET : T = table1 s2 n) by (unfold T, s2; rewrite table_snoc; reflexivity).
  rewrite bind_name; [|exact TX|rewrite <- ET; exact SL]. rewrite <- ET.
  unfold o2. fold s2. replace (lenN o + 1) with (lenN (o ++ [7])) by (rewrite lenN_app; reflexivity).
  replace ((o ++ [7] ++ le2 65535) ++ code (flat_map (field_instrs (index_of s2)) fs)) with ((o ++ [7]) ++ le2 65535 ++ code (flat_map (field_instrs (index_of s2)) fs))
    by (now rewrite <- !app_assoc).
  pose proof (bind_write (fun x => ret x) p1 e [e] rb (o ++ [7]) (le2 65535) (code (flat_map (field_instrs (index_of s2)) fs)) T (le2 (index_of T n)) eq_refl) as BW.
  assert (RB : forall (m : par unit) q, pbind m (fun x => ret x) q = m q) by (intros m q; unfold pbind, ret; destruct (m q); reflexivity).
  rewrite RB in BW. rewrite BW. unfold ret. f_equal. f_equal.
  rewrite <- app_assoc. f_equal. cbn [code flat_map instr_bytes opcode refs args ins app]. rewrite le2_bytes. cbn [app]. f_equal.
  unfold bytes_of. rewrite !app_nil_r. f_equal. unfold code. f_equal.
  assert (EF : forall l, incl l fs -> flat_map (field_instrs (index_of s2)) l = flat_map (field_instrs (index_of T)) l).
  { induction l as [|f l IH]; intros I; [reflexivity|]. cbn [flat_map]. rewrite IH by (intros q; intros; apply I; right; auto). f_equal. apply id_ext.
    rewrite ET. destruct (table1_app s2 n) as (q & ->). symmetry. apply index_in. unfold s2.
    apply (table_in (map f_name fs) s); auto. right. apply in_map. apply I. left. auto. }
  apply EF. apply incl_refl.
Qed.

(** ** The file *)
Definition order_code (l : list bool) : list instr := map (fun b : bool => ins (if b then 0x02 else 0x01) [] []) l.
Lemma top_orders_run E l ws : orders_read top_order_words l ws -> forall ts f p a x pv o s t r,
  map word_of ts = ws -> a :: x = ts ++ t :: r -> Forall plain (ts ++ [t]) -> tk t <> TAt -> (length l < f)%nat ->
  top_decorators E f (going p a x pv o s) = POk tt (going p t r (last ts pv) (o ++ code (order_code l)) s).
Proof.
  induction 1 as [|b w l ws I R IH]; intros ts f p a x pv o s t r M X P NT L; (destruct f as [|f]; [cbn in L; lia|]).
  - destruct ts; [|discriminate]. injection X as -> ->. cbn [top_decorators]. rewrite bind_at, is_kind_false by auto. cbn [negb]. cbn [order_code map code flat_map]. rewrite app_nil_r. reflexivity.
  - destruct ts as [|t1 [|t2 ts]]; try discriminate. cbn [map] in M. apply cons_inv in M as (WA & M). apply cons_inv in M as (WB & M). injection X as -> ->.
    cbn [app] in P. pose proof (Forall_inv P) as P1. apply Forall_inv_tail in P. pose proof (Forall_inv P) as P2. apply Forall_inv_tail in P.
    destruct (top_facts _ _ I) as (F1 & F2 & F3 & F4). cbv zeta in F1, F2, F3, F4.
    cbn [top_decorators]. rewrite bind_at, is_kind_true by exact (word_kind _ _ _ WA). cbn [negb app]. rewrite bind_adv by auto. rewrite bind_cur.
    assert (exists z zs, ts ++ t :: r = z :: zs /\ plain z) as (z & zs & EZ & PZ).
    { destruct ts as [|z zs]; [exists t, r|exists z, (zs ++ t :: r)]; (split; [reflexivity|]); exact (Forall_inv P). }
    rewrite EZ, bind_con; [|exact (word_kind _ _ _ WB)|auto].
    rewrite !(keyword_word t2), WB. change (TIdentifier, chars w) with (ident w). rewrite F1, F2, F3.
    assert (G : forall c, c = (if b then 0x02 else 0x01) ->
      top_decorators E f (going p z zs t2 (o ++ [c]) s) = POk tt (going p t r (last (t1 :: t2 :: ts) pv) (o ++ code (order_code (b :: l))) s)).
    { intros c ->. rewrite (IH ts f p z zs t2 _ s t r); auto; [|cbn in L; lia]. rewrite !last_cons. rewrite <- app_assoc. destruct b; reflexivity. }
    destruct b; [|rewrite F4 by reflexivity]; rewrite bind_emit; apply G; reflexivity.
Qed.

Definition plain_word (w : word) : Prop := fst w <> TError /\ fst w <> TEof.
Lemma plain_words ts : Forall plain_word (map word_of ts) -> Forall plain ts.
Proof. induction ts as [|t ts IH]; intros F; constructor; [exact (Forall_inv F)|apply IH; exact (Forall_inv_tail F)]. Qed.
Lemma orders_plain ws l r : orders_read ws l r -> Forall plain_word r.
Proof. induction 1; auto. constructor; [split; discriminate|]. constructor; [split; discriminate|auto]. Qed.
Lemma content_plain c a b : content_read c a b -> Forall plain_word (a ++ b).
Proof. destruct 1; repeat constructor; discriminate. Qed.
Lemma field_plain f ws : field_read f ws -> Forall plain_word ws.
Proof.
  intros (os & a & b & OR & CR & ->). apply orders_plain in OR. apply content_plain in CR. apply Forall_app in CR as (CA & CB).
  repeat (apply Forall_app; split); auto; repeat constructor; discriminate.
Qed.
Lemma fields_plain fs ws : fields_read fs ws -> Forall plain_word ws.
Proof. induction 1 as [|? ? ? ? FR]; auto. apply Forall_app. split; auto. now apply field_plain in FR. Qed.

Lemma file_run E k ws : packet_read k ws -> forall fuel path src toks,
  lex src = Some toks -> map word_of toks = ws ++ [(TEof, [])] -> Forall text (pk_names k) -> NoDup (map f_name (pk_fields k)) ->
  (length toks < fuel)%nat -> lenN (table [] (pk_names k)) <= 65536 ->
  let T := table [] (pk_names k) in
  exists p, parse_file E fuel path src = POk tt p /\ p_err p = false /\ p_strs p = T /\ p_out p = code (packet_instrs (index_of T) k).
Proof.
  intros (os & fw & OR & FR & ->) fuel path src toks LX M TX ND L SL T. unfold parse_file. rewrite LX.
  rewrite <- !app_assoc in M. apply map_eq_app in M as (t1 & tt1 & -> & M1 & M). cbn [app] in M. one_token. one_token. one_token.
  apply map_eq_app in M as (ft & tt2 & -> & M2 & M). one_token. one_token. one_token.
  rename t into kw, t0 into nt, t2 into lb, t3 into rb, t4 into e.
  assert (P1 : Forall plain t1) by (apply plain_words; rewrite M1; eapply orders_plain; eauto).
  assert (P2 : Forall plain ft) by (apply plain_words; rewrite M2; eapply fields_plain; eauto).
  assert (PK : plain kw) by (split; rewrite (word_kind _ _ _ W); discriminate).
  assert (PN : plain nt) by (split; rewrite (word_kind _ _ _ W0); discriminate).
  assert (PL : plain lb) by (split; rewrite (word_kind _ _ _ W1); discriminate).
  set (rest := nt :: lb :: ft ++ [rb; e]) in *.
  assert (exists z zs, t1 ++ kw :: rest = z :: zs /\ plain z /\ (tk z = TAt \/ tk z = TPacket)) as (z & zs & EZ & PZ & KZ).
  { destruct t1 as [|z zs]; [exists kw, rest|exists z, (zs ++ kw :: rest)]; (split; [reflexivity|]); (split; [auto; exact (Forall_inv P1)|]).
    - right. exact (word_kind _ _ _ W).
    - left. pose proof (order_at _ _ _ OR) as K. rewrite <- M1 in K. exact K. }
  set (p0 := parser0 path (t1 ++ kw :: rest)).
  assert (LO : (length t1 = 2 * length (pk_orders k))%nat) by (rewrite <- (orders_len _ _ _ OR), <- M1; now rewrite map_length).
  unfold rest in L. rewrite app_length in L. cbn [length] in L. rewrite app_length in L. cbn [length] in L. fold rest in L.
  assert (A : advance p0 = POk tt (going p0 z zs token0 [] [])).
  { change p0 with (going p0 token0 (t1 ++ kw :: rest) token0 [] []) at 1. rewrite EZ. now apply advance_going. }
  rewrite (bind_ok advance _ _ tt _ A). destruct fuel as [|fuel]; [lia|]. cbn [top_level]. rewrite bind_cur, bind_get.
  change (p_err (going p0 z zs token0 [] [])) with false. rewrite !is_kind_false by (destruct KZ as [-> | ->]; discriminate). cbn [orb].
  rewrite (bind_ok (top_decorators E fuel) _ _ tt (going p0 kw rest (last t1 token0) ([] ++ code (order_code (pk_orders k))) [])).
  2:{ apply (top_orders_run E _ os OR); auto; [apply Forall_app; auto|rewrite (word_kind _ _ _ W); discriminate|lia]. }
  rewrite bind_get. cbv beta. change (p_cur (going p0 kw rest (last t1 token0) ([] ++ code (order_code (pk_orders k))) [])) with kw.
  rewrite (word_kind _ _ _ W). cbv iota. rewrite bind_bind, bind_get.
  change (p_packets (going p0 kw rest (last t1 token0) ([] ++ code (order_code (pk_orders k))) [])) with 0. change (0 <? 0) with false. rewrite bind_bind, bind_when.
  rewrite bind_bind. unfold upd_p. unfold pbind at 1.
  match goal with |- context [pbind _ _ ?q = _] => change q with (going (set_packets 1 p0) kw rest (last t1 token0) (code (order_code (pk_orders k))) []) end.
  rewrite bind_bind. unfold rest. rewrite bind_adv by auto.
  set (p1 := set_packets 1 p0).
  apply Forall_app in TX as TX'. destruct TX' as (TF & TN).
  rewrite (bind_ok (parse_packet E fuel) _ _ tt _ (packet_run E (pk_fields k) fw FR fuel ft p1 nt lb rb e kw _ [] (pk_name k) M2 W0
    (word_kind _ _ _ W1) (word_kind _ _ _ W2) (word_kind _ _ _ W3) P2 ltac:(lia) eq_refl eq_refl eq_refl eq_refl ND TF ltac:(constructor) SL)).
  fold (pk_names k). fold T. destruct fuel as [|fuel]; [lia|]. cbn [top_level]. rewrite bind_cur, bind_get. rewrite is_kind_true by exact (word_kind _ _ _ W3). cbn [orb].
  rewrite bind_get. match goal with |- context [when ?b error ?q] => change (when b error q) with (POk tt q) end.
  eexists. split; [reflexivity|]. split; [reflexivity|]. split; [reflexivity|].
  unfold packet_instrs, code, order_code. rewrite flat_map_app. reflexivity.
Qed.

(** ** Renumbering *)
Definition sym := (N * list (list N) * list N)%type.
Definition inst (id : list N -> N) (x : sym) : instr := ins (fst (fst x)) (map id (snd (fst x))) (snd x).
Definition content_sym (c : content) (n : list N) : list sym :=
  match c with
  | Scalar ty One => [(ty, [n], [])]
  | Scalar ty (Fixed m) => [(0x34, [n], bytes_of LE 4 m); (ty, [n], []); (0x38, [], [])]
  | Scalar ty (Counted w) => [(array_op w, [n], []); (ty, [n], []); (0x38, [], [])]
  | Text max => [(0x30, [n], bytes_of LE 2 max)]
  | CountedText w => [(string_op w, [n], [])]
  end.
Definition field_sym (f : field) : list sym :=
  (if f_big f then [(0x02, [], [])] else []) ++ content_sym (f_content f) (f_name f) ++ (if f_big f then [(0x01, [], [])] else []).
Definition packet_sym (k : packet) : list sym :=
  map (fun b : bool => ((if b then 0x02 else 0x01), [], [])) (pk_orders k) ++ (0x07, [pk_name k], []) :: flat_map field_sym (pk_fields k).
Lemma field_sym_ok id f : field_instrs id f = map (inst id) (field_sym f).
Proof. unfold field_instrs, field_sym. destruct (f_big f), (f_content f) as [ty [|n|w]|m|w]; reflexivity. Qed.
Lemma packet_sym_ok id k : packet_instrs id k = map (inst id) (packet_sym k).
Proof.
  unfold packet_instrs, packet_sym. rewrite map_app, map_map. f_equal. cbn [map]. f_equal.
  induction (pk_fields k) as [|f l IH]; [reflexivity|]. cbn [flat_map]. rewrite map_app, field_sym_ok. f_equal. exact IH.
Qed.

Lemma nth_index t n : In n t -> nth (N.to_nat (index_of t n)) t [] = n.
Proof.
  induction t as [|y t IH]; [intros []|]. intros I. cbn [index_of]. destruct list_eq_dec as [E|E]; [exact E|].
  destruct I as [I|I]; [contradiction|]. replace (N.to_nat (1 + index_of t n)) with (S (N.to_nat (index_of t n))) by lia. cbn [nth]. auto.
Qed.
Lemma index_of_nth t i : NoDup t -> i < lenN t -> index_of t (nth (N.to_nat i) t []) = i.
Proof.
  revert i. induction t as [|y t IH]; intros i ND L; [cbn in L; lia|]. rewrite lenN_cons in L. inversion ND as [|? ? NI ND']; subst.
  destruct (N.eq_dec i 0) as [->|NZ]; cbn [index_of].
  - cbn [N.to_nat nth]. destruct list_eq_dec; congruence.
  - replace (N.to_nat i) with (S (N.to_nat (i - 1))) by lia. cbn [nth]. destruct list_eq_dec as [E|E].
    + exfalso. apply NI. rewrite E. apply nth_In. unfold lenN in L. lia.
    + rewrite IH by (auto; lia). lia.
Qed.
Lemma renumber T T' l p' : NoDup T' -> Forall (fun x : sym => Forall (fun n => In n T) (snd (fst x))) l ->
  Forall2 (same_instr T T') (map (inst (index_of T)) l) p' -> p' = map (inst (index_of T')) l.
Proof.
  intros ND F S. revert p' S. induction F as [|x l FX F IH]; intros p' S; inversion S as [|? j ? q (E1 & E2 & E3) S']; subst; [reflexivity|].
  cbn [map]. f_equal; [|now apply IH]. destruct x as [[op ns] a]. unfold inst, ins in *. cbn [fst snd opcode args refs] in *. destruct j as [op' rs a']. cbn in E1, E2, E3. subst op' a'.
  f_equal. clear - FX E3 ND. revert rs E3. induction FX as [|n ns I F IH]; intros rs E3; inversion E3 as [|? k' ? r (B & B' & EN) E3']; subst; [reflexivity|].
  cbn [map]. f_equal; [|now apply IH]. rewrite (nth_index _ _ I) in EN. rewrite EN. symmetry. now apply index_of_nth.
Qed.

Definition content_ok (c : content) : Prop := match c with Scalar ty _ => 0x10 <= ty <= 0x1A | _ => True end.
Lemma read_ok c a b : content_read c a b -> content_ok c.
Proof. intros R. destruct (content_head _ _ _ R) as (s & _ & I). destruct c; cbn; auto. now apply type_facts in I. Qed.
Lemma fields_ok fs ws : fields_read fs ws -> Forall (fun f => content_ok (f_content f)) fs.
Proof. induction 1 as [|f l ws wr (os & a & b & _ & CR & _)]; constructor; auto. eapply read_ok; eauto. Qed.

Definition sym_ok (x : sym) : Prop := let '(op, ns, a) := x in
  op < 256 /\ wf_bytes a /\ args_fit op a = true /\ lenN ns = names_of op /\ ~ In op [0x39; 0x4C; 0x4D; 0x53; 0x65; 0x06; 0x61].
Lemma type_sym ty n : 0x10 <= ty <= 0x1A -> sym_ok (ty, [n], []).
Proof.
  intros B. assert (ty = 16 \/ ty = 17 \/ ty = 18 \/ ty = 19 \/ ty = 20 \/ ty = 21 \/ ty = 22 \/ ty = 23 \/ ty = 24 \/ ty = 25 \/ ty = 26) as C by lia.
  repeat (destruct C as [-> | C]; [split; [reflexivity|]; split; [constructor|]; split; [reflexivity|]; split; [reflexivity|]; cbn; intuition discriminate|]).
  subst ty. split; [reflexivity|]; split; [constructor|]; split; [reflexivity|]; split; [reflexivity|]; cbn; intuition discriminate.
Qed.
Ltac easy_sym := split; [reflexivity|]; split; [solve [constructor | apply wf_bytes_of]|]; split; [reflexivity|]; split; [reflexivity|]; cbn; intuition discriminate.
Lemma array_sym w n : sym_ok (array_op w, [n], []).
Proof. unfold array_op. destruct w as [|[[]|[]|]]; easy_sym. Qed.
Lemma string_sym w n : sym_ok (string_op w, [n], []).
Proof. unfold string_op. destruct w as [|[[]|[]|]]; easy_sym. Qed.
Lemma content_syms c n : content_ok c -> Forall sym_ok (content_sym c n).
Proof.
  intros O. destruct c as [ty [|m|w]|m|w]; cbn [content_sym content_ok] in *; repeat apply Forall_cons; try apply Forall_nil; auto using type_sym, array_sym, string_sym; easy_sym.
Qed.
Lemma packet_syms k : Forall (fun f => content_ok (f_content f)) (pk_fields k) -> Forall sym_ok (packet_sym k).
Proof.
  intros F. unfold packet_sym. apply Forall_app. split.
  - apply Forall_forall. intros x I. apply in_map_iff in I as (b & <- & _). destruct b; easy_sym.
  - constructor; [easy_sym|]. induction F as [|f l O F IH]; [constructor|]. cbn [flat_map]. apply Forall_app. split; auto.
    unfold field_sym. repeat (apply Forall_app; split); try (destruct (f_big f); constructor; [easy_sym|constructor]). now apply content_syms.
Qed.
Lemma content_names c n x : In x (content_sym c n) -> snd (fst x) = [n] \/ snd (fst x) = [].
Proof. destruct c as [ty [|m|w]|m|w]; cbn; intuition (subst; auto). Qed.
Lemma content_first c n : exists x l, content_sym c n = x :: l /\ snd (fst x) = [n].
Proof. destruct c as [ty [|m|w]|m|w]; cbn; eauto. Qed.
Lemma field_names f x : In x (field_sym f) -> snd (fst x) = [f_name f] \/ snd (fst x) = [].
Proof.
  unfold field_sym. rewrite !in_app_iff. intros [I|[I|I]]; [|now apply content_names in I|]; destruct (f_big f); destruct I; subst; auto; contradiction.
Qed.
Lemma packet_names k n : (exists x, In x (packet_sym k) /\ In n (snd (fst x))) <-> In n (pk_names k).
Proof.
  unfold packet_sym, pk_names. rewrite in_app_iff, in_map_iff. split.
  - intros (x & I & J). apply in_app_iff in I as [I|[<-|I]].
    + apply in_map_iff in I as (b & <- & _). destruct J.
    + right. exact J.
    + apply in_flat_map in I as (f & I & K). left. apply field_names in K as [E|E]; rewrite E in J; [|destruct J]. destruct J as [<-|[]]. eauto.
  - intros [(f & <- & I)|[<-|[]]].
    + destruct (content_first (f_content f) (f_name f)) as (x & l & E & EN). exists x. split; [|rewrite EN; left; auto].
      apply in_app_iff. right. right. apply in_flat_map. exists f. split; auto. unfold field_sym. rewrite E, !in_app_iff. right. left. left. auto.
    + exists (0x07, [pk_name k], []). split; [|left; auto]. apply in_app_iff. right. left. auto.
Qed.

Lemma table_sub ns : forall t x, In x (table t ns) -> In x t \/ In x ns.
Proof.
  induction ns as [|n r IH]; intros t x I; [auto|]. apply IH in I as [I|I]; [|right; right; auto].
  unfold table1, strtab_add in I. destruct strtab_find; cbn [fst] in I; auto. apply in_app_iff in I as [I|[<-|[]]]; [auto|right; left; auto].
Qed.
Lemma compile_packet E k ws path src toks : packet_read k ws -> e_read E (e_canon E path) = Some src -> lex src = Some toks ->
  map word_of toks = ws ++ [(TEof, [])] -> Forall text (pk_names k) -> NoDup (map f_name (pk_fields k)) -> lenN (pk_names k) <= 65536 ->
  exists names, NoDup names /\ (forall s, In s names <-> In s (pk_names k)) /\
    forall fuel, (length toks < fuel)%nat -> compile_file E fuel path = CImage (image names (code (packet_instrs (index_of names) k))).
Proof.
  intros PR RD LX M TX ND LN. set (T := table [] (pk_names k)).
  assert (SL : lenN T <= 65536).
  { assert (G : forall ns t, lenN (table t ns) <= lenN t + lenN ns).
    { induction ns as [|n r IH]; intros t; [change (table t []) with t; lia|]. specialize (IH (table1 t n)). change (table t (n :: r)) with (table (table1 t n) r).
      rewrite lenN_cons. unfold table1 at 2, strtab_add in IH. destruct strtab_find; cbn [fst] in IH; [lia|]. rewrite lenN_app in IH. change (lenN [n]) with 1 in IH. lia. }
    specialize (G (pk_names k) []). rewrite lenN_nil in G. unfold T. lia. }
  assert (IN : forall s, In s T <-> In s (pk_names k)).
  { intros s. split; [intros I; apply table_sub in I as [[]|I]; auto|intros I; apply table_in; auto]. }
  destruct PR as (os & fw & OR & FR & EW). pose proof (packet_syms k (fields_ok _ _ FR)) as SO.
  assert (NT : Forall (fun x : sym => Forall (fun n => In n T) (snd (fst x))) (packet_sym k)).
  { apply Forall_forall. intros x I. apply Forall_forall. intros n J. apply IN. apply packet_names. eauto. }
  assert (WF : Forall (well_formed T) (packet_instrs (index_of T) k) /\ Forall optimiser_reads (packet_instrs (index_of T) k)).
  { rewrite packet_sym_ok. split; apply Forall_forall; intros i I; apply in_map_iff in I as (x & <- & I);
      pose proof (proj1 (Forall_forall _ _) SO x I) as O; pose proof (proj1 (Forall_forall _ _) NT x I) as Q; destruct x as [[op ns] a]; cbn [sym_ok fst snd] in O, Q;
      destruct O as (O1 & O2 & O3 & O4 & O5).
    - split; [exact O1|]. split; [exact O2|]. split; [exact O3|]. cbn [inst ins refs opcode fst snd]. split; [unfold lenN in *; now rewrite map_length|].
      apply Forall_forall. intros z Z. apply in_map_iff in Z as (n & <- & J). pose proof (index_bound T n (proj1 (Forall_forall _ _) Q n J)). lia.
    - unfold optimiser_reads. cbn [inst ins opcode fst snd]. cbn [In] in O5. split; [cbn [In]; intuition|]. split; [intuition|]. intros ->. exfalso. apply O5. auto 8. }
  destruct WF as (WF & OP).
  assert (TT : Forall text T) by (apply table_text; auto).
  assert (TN : T <> []). { intros E0. assert (I : In (pk_name k) T) by (apply IN; unfold pk_names; apply in_or_app; right; left; auto). rewrite E0 in I. destruct I. }
  destruct (optimize_spec T _ TT SL WF OP TN) as (names & p' & EO & SI & ND' & RF).
  pose proof SI as SI'. rewrite packet_sym_ok in SI'. apply renumber in SI'; auto. rewrite <- packet_sym_ok in SI'. subst p'.
  exists names. split; [exact ND'|]. split.
  - intros s. rewrite RF. split.
    + intros (i & kk & I & J & LK & EN). rewrite packet_sym_ok in I. apply in_map_iff in I as (x & <- & I). cbn [inst ins refs] in J. apply in_map_iff in J as (n & <- & J).
      rewrite nth_index in EN by (exact (proj1 (Forall_forall _ _) (proj1 (Forall_forall _ _) NT x I) n J)). subst s. apply packet_names. eauto.
    + intros I. pose proof (proj2 (IN s) I) as IT. apply packet_names in I as (x & I & J). exists (inst (index_of T) x), (index_of T s). rewrite packet_sym_ok.
      split; [now apply in_map|]. split; [cbn [inst ins refs]; now apply in_map|]. split; [now apply index_bound|now apply nth_index].
  - intros fuel L. unfold compile_file. rewrite RD.
    destruct (file_run E k ws ltac:(exists os, fw; auto) fuel (e_canon E path) src toks LX M TX ND L SL) as (p & -> & -> & -> & ->).
    fold T. now rewrite EO.
Qed.
