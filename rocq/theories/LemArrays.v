(** Compiling packets with counted arrays and arrays to the end of the message. *)
From Coq Require Import Strings.String ZifyBool ZifyNat ZifyN.
From Verif Require Import Base SpecBytes SpecVM ModelVM ModelImage SpecImage LemImage ModelText SpecText LemLex ModelNames ModelParse ModelSchema SpecParse LemBase LemStr LemText
  LemParse SpecNames LemNames SpecPacket LemPacket LemAccept SpecMessage SpecArrays.

(** ** Decorators *)
Lemma decorators_go E l ws : orders_read order_words l ws -> forall ts f d p a x pv o s t r,
  map word_of ts = ws -> a :: x = ts ++ t :: r -> Forall plain (ts ++ [t]) ->
  decorators E (length l + f) d (going p a x pv o s) = decorators E f (all_be l d) (going p t r (last ts pv) o s).
Proof.
  induction 1 as [|b w l ws I R IH]; intros ts f d p a x pv o s t r M X P.
  - destruct ts; [|discriminate]. injection X as -> ->. reflexivity.
  - destruct ts as [|t1 [|t2 ts]]; try discriminate. cbn [map] in M. apply cons_inv in M as (WA & M). apply cons_inv in M as (WB & M). injection X as -> ->.
    cbn [app] in P. inversion P as [|? ? P1 P']; subst. inversion P' as [|? ? P2 P'']; subst.
    destruct (order_facts _ _ I) as (F1 & F2). cbv zeta in F1, F2. cbn [length Nat.add].
    cbn [decorators]. rewrite bind_at, is_kind_true by exact (word_kind _ _ _ WA). cbn [app]. rewrite bind_adv by auto.
    assert (D : forall r', plain r' -> forall y pv', (forall B (k : deco -> par B), pbind (decorator E (length l + f) d) k (going p t2 (r' :: y) pv' o s) = k (with_be b d) (going p r' y t2 o s))).
    { intros r' PR y pv' B k. unfold decorator. rewrite bind_bind, bind_cur, bind_bind, bind_con; [|exact (word_kind _ _ _ WB)|auto].
      rewrite !(keyword_word t2), WB. change (TIdentifier, chars w) with (ident w). rewrite F1. destruct b.
      - reflexivity.
      - rewrite F2 by reflexivity. reflexivity. }
    destruct ts as [|t3 ts].
    + cbn [app]. rewrite D by (inversion P''; auto). rewrite (IH [] f (with_be b d) p t r t2 o s t r); auto.
    + cbn [app]. rewrite D by (inversion P''; auto). rewrite (IH (t3 :: ts) f (with_be b d) p t3 (ts ++ t :: r) t2 o s t r); auto.
      cbn [all_be fold_left]. f_equal. f_equal. rewrite !last_cons. destruct ts; reflexivity.
Qed.
Lemma all_be_eof l : forall d, all_be l (with_eof d) = with_eof (all_be l d).
Proof. induction l as [|b l IH]; intros d; [reflexivity|]. cbn [all_be fold_left]. exact (IH (with_be b d)). Qed.
Lemma all_be_count l id : forall d, all_be l (with_count id d) = with_count id (all_be l d).
Proof. induction l as [|b l IH]; intros d; [reflexivity|]. cbn [all_be fold_left]. exact (IH (with_be b d)). Qed.
Lemma all_be_app a b d : all_be b (all_be a d) = all_be (a ++ b) d.
Proof. unfold all_be. now rewrite fold_left_app. Qed.

Ltac keywords := repeat match goal with |- context [match_keyword (of_word (ident ?a)) ?b] =>
  let v := eval vm_compute in (match_keyword (of_word (ident a)) b) in change (match_keyword (of_word (ident a)) b) with v end; cbn [orb].
Lemma eof_deco E f d p at1 w b y pv o s : word_of at1 = sign TAt "@" -> word_of w = ident "eof" -> plain w -> plain b ->
  decorators E (S f) d (going p at1 (w :: b :: y) pv o s) = decorators E f (with_eof d) (going p b y w o s).
Proof.
  intros WA WW PW PB. cbn [decorators]. rewrite bind_at, is_kind_true by exact (word_kind _ _ _ WA). rewrite bind_adv by auto.
  unfold decorator. rewrite bind_bind, bind_cur, bind_bind, bind_con; [|exact (word_kind _ _ _ WW)|auto].
  rewrite !(keyword_word w), WW. keywords. now rewrite bind_ret.
Qed.
Lemma count_deco E f d p at1 w lp n rp b y pv o s cw ref : In cw count_words -> word_of at1 = sign TAt "@" -> word_of w = ident cw ->
  word_of lp = sign TLparen "(" -> word_of n = (TIdentifier, ref) -> word_of rp = sign TRparen ")" -> Forall plain [w; lp; n; rp; b] ->
  Forall text s -> lenN (table1 s ref) <= 65536 ->
  decorators E (S f) d (going p at1 (w :: lp :: n :: rp :: b :: y) pv o s) =
  decorators E f (with_count (index_of (table1 s ref) ref) d) (going p b y rp o (table1 s ref)).
Proof.
  intros I WA WW WL WN WR P ST SL. repeat (let Q := fresh "P" in inversion P as [|? ? Q P']; clear P; subst; rename P' into P).
  cbn [decorators]. rewrite bind_at, is_kind_true by exact (word_kind _ _ _ WA). rewrite bind_adv by auto.
  unfold decorator. rewrite bind_bind, bind_cur, bind_bind, bind_con; [|exact (word_kind _ _ _ WW)|auto].
  rewrite !(keyword_word w), WW.
  assert (G : forall B (kk : deco -> par B) q, pbind (deco_args E f w d) kk (going p n (rp :: b :: y) q o s) =
    kk (with_count (index_of (table1 s ref) ref) d) (going p rp (b :: y) n o (table1 s ref))).
  { intros B kk q. unfold deco_args. cbv zeta. rewrite !(keyword_word w), WW.
    destruct I as [<-|[<-|[]]]; keywords; rewrite bind_bind, bind_cur, (word_kind _ _ _ WN), bind_bind, bind_adv by auto;
      rewrite (word_text _ _ _ WN), bind_bind, bind_name by auto; now rewrite bind_ret. }
  destruct I as [<-|[<-|[]]]; keywords; (rewrite bind_bind, bind_con; [|exact (word_kind _ _ _ WL)|auto]); rewrite bind_bind, G;
    (rewrite bind_bind, bind_con; [|exact (word_kind _ _ _ WR)|auto]); now rewrite bind_ret.
Qed.

(** ** What follows the decorators of an array *)
Definition open_of (id : list N -> N) (w : what) (k : N) : list N :=
  match w with Listed ref _ => [0x3B] ++ le2 k ++ le2 (id ref) | Rest _ => [0x3A] ++ le2 k | Plain _ => [] end.
Definition deco_of (id : list N -> N) (w : what) (d : deco) : deco :=
  match w with Listed ref _ => with_count (id ref) d | Rest _ => with_eof d | Plain _ => d end.
Definition elem (w : what) : option N := match w with Listed _ ty | Rest ty => Some ty | Plain _ => None end.
Lemma item_code id i ty : elem (i_what i) = Some ty -> code (item_instrs id i) =
  (if i_big i then [0x02] else []) ++ open_of id (i_what i) (id (i_name i)) ++ ([ty] ++ le2 (id (i_name i))) ++ [0x38] ++ (if i_big i then [0x01] else []).
Proof.
  intros E. unfold item_instrs, code. destruct (i_what i) as [c|ref t|t]; [discriminate| |]; injection E as ->; destruct (i_big i);
    cbn -[le2]; rewrite ?app_nil_r, <- ?app_assoc; reflexivity.
Qed.
Lemma array_rest_run E id w ty sw b n : elem w = Some ty -> In (ty, sw) type_words -> forall ts p y x pv o s t r,
  map word_of ts = [ident sw; (TIdentifier, n); sign TLbracket "["; sign TRbracket "]"; sign TSemicolon ";"] ->
  y :: x = ts ++ t :: r -> Forall plain (ts ++ [t]) ->
  p_bitmode p = false -> plain_types p -> p_enums p = [] -> ~ In n (p_fields p) -> Forall text (p_fields p) ->
  Forall text s -> lenN (table1 s n) <= 65536 ->
  let k := index_of (table1 s n) n in
  field_rest E (deco_of id w (with_be b deco0)) (going p y x pv o s) =
  POk tt (going (set_struct (p_sname p) (p_fields p ++ [n]) p) t r (last ts pv)
    (o ++ (if b then [0x02] else []) ++ open_of id w k ++ ([ty] ++ le2 k) ++ [0x38] ++ (if b then [0x01] else [])) (table1 s n)).
Proof.
  intros EL CW ts p y x pv o s t r M X P BM PS PE NI FT ST SL k. do 5 one_token. one_token. cbn [app] in X, P. injection X as -> ->.
  rename t0 into ty0, t1 into nm, t2 into lb, t3 into rb, t4 into sc.
  repeat (let Q := fresh "P" in inversion P as [|? ? Q P']; clear P; subst; rename P' into P). clear P.
  set (d := deco_of id w (with_be b deco0)).
  assert (DD : d_alone d = false /\ trans_code d = [] /\ d_be d = b /\ d_const d = None /\ d_crc d = None /\ d_expr d = false /\ d_range d = None /\ d_fixed d = None)
    by (unfold d; destruct w; [discriminate| |]; cbn; auto 10).
  destruct DD as (D0 & DT & DB & DC & DR & DX & DG & DF).
  unfold field_rest. rewrite !bind_at. rewrite D0. cbn [andb app]. rewrite DT, bind_emit, app_nil_r.
  rewrite bind_cur, bind_con; [|exact (word_kind _ _ _ W)|auto]. rewrite bind_cur.
  rewrite (is_kind_false TSelf) by (rewrite (word_kind _ _ _ W0); discriminate).
  rewrite bind_con; [|exact (word_kind _ _ _ W0)|auto].
  rewrite (word_text _ _ _ W0), fields_add by auto. rewrite bind_name by auto. rewrite bind_at, is_kind_false by (rewrite (word_kind _ _ _ W1); discriminate). rewrite bind_ret.
  set (p1 := set_struct _ _ p). fold k. set (s1 := table1 s n).
  destruct (type_facts _ _ CW) as (TN & NS & _).
  set (sh := mk_shape (Some true) 0 0 255 false).
  assert (SH : forall B (kk : deco * shape -> par B) q, pbind (field_shape ty0 d) kk (going p1 lb (rb :: sc :: t :: r) q o s1) = kk (d, sh) (going p1 sc (t :: r) rb o s1)).
  { intros B kk q. unfold field_shape. rewrite bind_bind, bind_at, is_kind_true by exact (word_kind _ _ _ W1). rewrite !bind_bind, bind_adv by auto.
    rewrite bind_bind, bind_at, is_kind_true by exact (word_kind _ _ _ W2). rewrite bind_bind, bind_adv by auto. rewrite bind_ret. cbn [fst snd]. cbv zeta.
    rewrite bind_bind, bind_cur. rewrite (keyword_word sc), W3. change (match_keyword (of_word (sign TSemicolon ";")) "prefix") with false. cbv iota.
    rewrite (keyword_word ty0), W, NS. reflexivity. }
  rewrite SH. cbv zeta. cbn [fst snd]. rewrite (keyword_word ty0), W, NS. cbn [s_array sh mk_shape some andb]. rewrite bind_when.
  assert (EM : forall B (kk : unit -> par B) b0 c q, pbind (when b0 (emit c)) kk (going p1 sc (t :: r) rb q s1) = kk tt (going p1 sc (t :: r) rb (q ++ (if b0 then c else [])) s1)).
  { intros B kk [] c0 q; [reflexivity|]. cbn [when]. rewrite app_nil_r. reflexivity. }
  rewrite DB, EM, bind_emit, DC.
  assert (OC : open_code d sh k = open_of id w k) by (unfold open_code, d; destruct w; [discriminate| |]; cbn -[le2]; now rewrite ?app_nil_r).
  rewrite OC. rewrite bind_bind, bind_get, bind_bind, bind_get.
  match goal with |- context [find_struct (p_structs ?g)] => change (p_structs g) with (p_structs p); change (p_enums g) with (p_enums p) end.
  rewrite (word_text _ _ _ W), PS, PE by (right; apply in_map_iff; exists (ty, sw); auto). cbn [find_enum find].
  unfold basic_field. rewrite bind_bind, bind_get.
  match goal with |- context [p_bitmode ?g] => change (p_bitmode g) with (p_bitmode p) end. rewrite BM. cbv zeta. cbn [andb].
  change (0 <? 0) with false. cbv iota. rewrite type_word, W, TN, DR, DX, DG. rewrite bind_bind, bind_bind, bind_emit. cbv beta. rewrite bind_ret.
  rewrite bind_ret. cbn [when s_array sh mk_shape some]. rewrite bind_emit. rewrite bind_con; [|exact (word_kind _ _ _ W3)|auto].
  rewrite <- !app_assoc. destruct b; cbn [when]; [|rewrite ?app_nil_r; reflexivity].
  match goal with |- emit ?c (going ?p ?a ?x ?v ?o ?s) = _ => change (emit c (going p a x v o s)) with (POk tt (going p a x v (o ++ c) s)) end.
  now rewrite <- !app_assoc.
Qed.

(** ** Items *)
Lemma table1_in s n : Forall text s -> lenN (table1 s n) <= 65536 -> In n (table1 s n).
Proof. intros ST SL. exact (proj2 (add_index s n ST SL)). Qed.
Lemma plain_instrs id l c n : item_instrs id {| i_orders := l; i_what := Plain c; i_name := n |} = field_instrs id {| f_orders := l; f_content := c; f_name := n |}.
Proof. reflexivity. Qed.
Lemma start_run E fuel p y x pv o s : tk y = TAt \/ tk y = TIdentifier -> p_err p = false ->
  parse_field E (S (S fuel)) (going p y x pv o s) = pbind (decorators E (S fuel) deco0) (field_rest E) (going p y x pv o s).
Proof.
  intros KY ER. cbn [parse_field]. rewrite bind_get. change (p_err (going p y x pv o s)) with (p_err p). rewrite ER.
  rewrite bind_skip by (destruct KY as [K|K]; rewrite K; discriminate). rewrite bind_get. change (p_cur (going p y x pv o s)) with y.
  destruct KY as [K|K]; now rewrite K.
Qed.
Lemma first_at l os t r y x : orders_read order_words l os -> map word_of t = os -> y :: x = t ++ r -> match r with [] => False | z :: _ => tk z = TAt end -> tk y = TAt.
Proof.
  intros OR M X K. destruct t as [|z t]; [destruct r; [easy|]; injection X as -> _; exact K|]. injection X as -> _.
  pose proof (order_at _ _ _ OR) as Q. rewrite <- M in Q. exact Q.
Qed.
Lemma item_run E i ws : item_read i ws -> forall fuel ts p y x pv o s t r,
  map word_of ts = ws -> y :: x = ts ++ t :: r -> Forall plain (ts ++ [t]) -> (length (i_orders i) + 1 < fuel)%nat ->
  p_err p = false -> p_bitmode p = false -> plain_types p -> p_enums p = [] -> ~ In (i_name i) (p_fields p) -> Forall text (p_fields p) ->
  Forall text s -> Forall text (item_names i) -> lenN (table s (item_names i)) <= 65536 ->
  parse_field E (S fuel) (going p y x pv o s) =
  POk tt (going (set_struct (p_sname p) (p_fields p ++ [i_name i]) p) t r (last ts pv)
    (o ++ code (item_instrs (index_of (table s (item_names i))) i)) (table s (item_names i))).
Proof.
  intros R fuel ts p y x pv o s t r M X P L ER BM PS PE NI FT ST TI SL. destruct R as [l c n ws FR|l1 l2 os1 os2 cw ref ty sw n OR1 OR2 IC IT|l1 l2 os1 os2 ty sw n OR1 OR2 IT];
    unfold item_names in *; cbn [i_orders i_what i_name] in *.
  - rewrite plain_instrs. change (table s [n]) with (table1 s n) in *. exact (field_run E _ ws FR fuel ts p y x pv o s t r M X P ltac:(cbn; lia) ER BM PS PE NI FT ST SL).
  - apply map_eq_app in M as (t1 & ts' & -> & M1 & M). cbn [app] in M. do 5 one_token. apply map_eq_app in M as (u2 & u3 & -> & M2 & M3).
    rename t0 into at1, t2 into cn, t3 into lp, t4 into rf, t5 into rp. destruct u3 as [|h u3]; [discriminate M3|].
    assert (KH : tk h = TIdentifier) by (cbn [map] in M3; apply cons_inv in M3 as (Q & _); exact (word_kind _ _ _ Q)).
    destruct fuel as [|fuel]; [lia|]. rewrite start_run; auto.
    2:{ left. eapply (first_at l1 os1 t1); eauto; [rewrite X, <- app_assoc; reflexivity|]. exact (word_kind _ _ _ W). }
    rewrite <- app_assoc in X, P. cbn [app] in X, P. apply Forall_app in P as (P1 & P).
    set (tail := u2 ++ h :: u3) in *. assert (exists b bs, tail ++ t :: r = b :: bs /\ Forall plain [cn; lp; rf; rp; b] /\ Forall plain (tail ++ [t])) as (b & bs & EB & PB & PT).
    { inversion P as [|? ? Q0 P']; subst. inversion P' as [|? ? Q1 P2]; subst. inversion P2 as [|? ? Q2 P3]; subst. inversion P3 as [|? ? Q3 P4]; subst. inversion P4 as [|? ? Q4 P5]; subst.
      unfold tail in P5 |- *. destruct u2 as [|b u2]; cbn [app] in P5 |- *; (eexists _, _; split; [reflexivity|]); (split; [|exact P5]); pose proof (Forall_inv P5); repeat constructor; try apply Q1; try apply Q2; try apply Q3; try apply Q4; apply H. }
    rewrite EB in X. rewrite app_length in L.
    rewrite (bind_ok (decorators E (S fuel) deco0) _ _ (with_count (index_of (table1 s ref) ref) (with_be (last (l1 ++ l2) false) deco0)) (going p h (u3 ++ t :: r) (last u2 rp) o (table1 s ref))).
    + change (with_count (index_of (table1 s ref) ref) (with_be (last (l1 ++ l2) false) deco0)) with (deco_of (index_of (table1 s ref)) (Listed ref ty) (with_be (last (l1 ++ l2) false) deco0)).
      change (table s [ref; n]) with (table1 (table1 s ref) n) in *.
      pose proof (table_len (table1 s ref) [n]) as TL. change (table (table1 s ref) [n]) with (table1 (table1 s ref) n) in TL.
      rewrite (array_rest_run E (index_of (table1 s ref)) (Listed ref ty) ty sw _ n eq_refl IT (h :: u3) p h (u3 ++ t :: r) _ o (table1 s ref) t r M3 eq_refl); auto.
      * rewrite (item_code (index_of (table1 (table1 s ref) n)) {| i_orders := l1 ++ l2; i_what := Listed ref ty; i_name := n |} ty eq_refl). unfold i_big. cbn [i_orders i_what i_name open_of].
        assert (IX : index_of (table1 (table1 s ref) n) ref = index_of (table1 s ref) ref).
        { destruct (table1_app (table1 s ref) n) as (q & ->). apply index_in. apply table1_in; auto. lia. }
        rewrite IX. assert (LX : last (t1 ++ at1 :: cn :: lp :: rf :: rp :: tail) pv = last (h :: u3) (last u2 rp)).
        { rewrite last_two. unfold tail. change (at1 :: cn :: lp :: rf :: rp :: u2 ++ h :: u3) with ([at1; cn; lp; rf; rp] ++ u2 ++ h :: u3). now rewrite !last_two. }
        rewrite LX. reflexivity.
      * unfold tail in PT. rewrite <- app_assoc in PT. apply Forall_app in PT. apply PT.
      * apply table1_text; auto. exact (Forall_inv TI).
    + pose proof (table_len (table1 s ref) [n]) as TL. change (table s [ref; n]) with (table (table1 s ref) [n]) in SL.
      replace (S fuel) with (length l1 + (S (fuel - length l1)))%nat by lia.
      rewrite (decorators_go E l1 os1 OR1 t1 _ deco0 p y x pv o s at1 (cn :: lp :: rf :: rp :: b :: bs) M1 X); [|apply Forall_app; split; auto; constructor; auto; exact (Forall_inv P)].
      rewrite (count_deco E _ _ p at1 cn lp rf rp b bs _ o s cw ref IC W W0 W1 W2 W3 PB ST ltac:(lia)).
      rewrite (decorators_run E l2 os2 OR2 u2 _ _ p b bs rp o _ h (u3 ++ t :: r) M2); auto.
      * rewrite all_be_count, all_be_app, all_be_last. reflexivity.
      * rewrite <- EB. unfold tail. now rewrite <- app_assoc.
      * unfold tail in PT. rewrite <- app_assoc in PT. apply Forall_app in PT as (A & B). apply Forall_app. split; auto. constructor; auto. exact (Forall_inv B).
      * rewrite KH. discriminate.
      * lia.
  - apply map_eq_app in M as (t1 & ts' & -> & M1 & M). cbn [app] in M. do 2 one_token. apply map_eq_app in M as (u2 & u3 & -> & M2 & M3).
    rename t0 into at1, t2 into cn. destruct u3 as [|h u3]; [discriminate M3|].
    assert (KH : tk h = TIdentifier) by (cbn [map] in M3; apply cons_inv in M3 as (Q & _); exact (word_kind _ _ _ Q)).
    destruct fuel as [|fuel]; [lia|]. rewrite start_run; auto.
    2:{ left. eapply (first_at l1 os1 t1); eauto; [rewrite X, <- app_assoc; reflexivity|]. exact (word_kind _ _ _ W). }
    rewrite <- app_assoc in X, P. cbn [app] in X, P. apply Forall_app in P as (P1 & P).
    set (tail := u2 ++ h :: u3) in *. assert (exists b bs, tail ++ t :: r = b :: bs /\ plain cn /\ plain b /\ Forall plain (tail ++ [t])) as (b & bs & EB & PC & PB & PT).
    { inversion P as [|? ? Q0 P']; subst. inversion P' as [|? ? Q1 P2]; subst.
      unfold tail in P2 |- *. destruct u2 as [|b u2]; cbn [app] in P2 |- *; (eexists _, _; split; [reflexivity|]); (split; [exact Q1|]); (split; [exact (Forall_inv P2)|exact P2]). }
    rewrite EB in X. rewrite app_length in L. change (table s [n]) with (table1 s n) in *.
    rewrite (bind_ok (decorators E (S fuel) deco0) _ _ (with_eof (with_be (last (l1 ++ l2) false) deco0)) (going p h (u3 ++ t :: r) (last u2 cn) o s)).
    + change (with_eof (with_be (last (l1 ++ l2) false) deco0)) with (deco_of (index_of s) (Rest ty) (with_be (last (l1 ++ l2) false) deco0)).
      rewrite (array_rest_run E (index_of s) (Rest ty) ty sw _ n eq_refl IT (h :: u3) p h (u3 ++ t :: r) _ o s t r M3 eq_refl); auto.
      * rewrite (item_code (index_of (table1 s n)) {| i_orders := l1 ++ l2; i_what := Rest ty; i_name := n |} ty eq_refl). unfold i_big. cbn [i_orders i_what i_name open_of].
        assert (LX : last (t1 ++ at1 :: cn :: tail) pv = last (h :: u3) (last u2 cn)).
        { rewrite last_two. unfold tail. change (at1 :: cn :: u2 ++ h :: u3) with ([at1; cn] ++ u2 ++ h :: u3). now rewrite !last_two. }
        rewrite LX. reflexivity.
      * unfold tail in PT. rewrite <- app_assoc in PT. apply Forall_app in PT. apply PT.
    + replace (S fuel) with (length l1 + (S (fuel - length l1)))%nat by lia.
      rewrite (decorators_go E l1 os1 OR1 t1 _ deco0 p y x pv o s at1 (cn :: b :: bs) M1 X); [|apply Forall_app; split; auto; constructor; auto; exact (Forall_inv P)].
      rewrite (eof_deco E _ _ p at1 cn b bs _ o s W W0 PC PB).
      rewrite (decorators_run E l2 os2 OR2 u2 _ _ p b bs cn o _ h (u3 ++ t :: r) M2); auto.
      * rewrite all_be_eof, all_be_app, all_be_last. reflexivity.
      * rewrite <- EB. unfold tail. now rewrite <- app_assoc.
      * unfold tail in PT. rewrite <- app_assoc in PT. apply Forall_app in PT as (A & B). apply Forall_app. split; auto. constructor; auto. exact (Forall_inv B).
      * rewrite KH. discriminate.
      * lia.
Qed.

(** ** Lists of items *)
Lemma table_two s a b : LemParse.table s (a ++ b) = LemParse.table (LemParse.table s a) b.
Proof. unfold LemParse.table. apply fold_left_app. Qed.
Lemma item_ext id id' i : (forall n, In n (item_names i) -> id n = id' n) -> item_instrs id i = item_instrs id' i.
Proof.
  intros E. unfold item_instrs, item_names in *. destruct i as [l w n]. cbn [i_what i_name] in *. rewrite (E n) by (destruct w; cbn; auto).
  f_equal. f_equal. destruct w as [c|ref ty|ty]; [reflexivity| |reflexivity]. cbn [what_instrs]. rewrite (E ref) by (cbn; auto). reflexivity.
Qed.
Lemma item_len i ws : item_read i ws -> (2 * length (i_orders i) + 3 <= length ws)%nat.
Proof.
  intros [l c n ws' FR|l1 l2 os1 os2 cw ref ty sw n OR1 OR2 IC IT|l1 l2 os1 os2 ty sw n OR1 OR2 IT]; cbn [i_orders].
  - exact (field_len _ _ FR).
  - rewrite !app_length, (orders_len _ _ _ OR1), (orders_len _ _ _ OR2). cbn [length]. lia.
  - rewrite !app_length, (orders_len _ _ _ OR1), (orders_len _ _ _ OR2). cbn [length]. lia.
Qed.
Lemma item_head i ws : item_read i ws -> exists w r, ws = w :: r /\ (fst w = TAt \/ fst w = TIdentifier).
Proof.
  intros [l c n ws' FR|l1 l2 os1 os2 cw ref ty sw n OR1 OR2 IC IT|l1 l2 os1 os2 ty sw n OR1 OR2 IT].
  - exact (field_head _ _ FR).
  - pose proof (order_at _ _ _ OR1) as K. destruct os1; cbn [app]; eauto 6.
  - pose proof (order_at _ _ _ OR1) as K. destruct os1; cbn [app]; eauto 6.
Qed.
Lemma item_plain_words i ws : item_read i ws -> Forall plain_word ws.
Proof.
  intros [l c n ws' FR|l1 l2 os1 os2 cw ref ty sw n OR1 OR2 IC IT|l1 l2 os1 os2 ty sw n OR1 OR2 IT].
  - exact (field_plain _ _ FR).
  - apply orders_plain in OR1. apply orders_plain in OR2. repeat (apply Forall_app; split); auto; repeat constructor; discriminate.
  - apply orders_plain in OR1. apply orders_plain in OR2. repeat (apply Forall_app; split); auto; repeat constructor; discriminate.
Qed.
Lemma items_plain_words is ws : items_read is ws -> Forall plain_word ws.
Proof. induction 1 as [|? ? ? ? IR]; auto. apply Forall_app. split; auto. now apply item_plain_words in IR. Qed.

#[local] Notation strs := (flat_map item_names).
Lemma items_run E is ws : items_read is ws -> forall fuel ts p y x pv o s t r,
  map word_of ts = ws -> y :: x = ts ++ t :: r -> Forall plain (ts ++ [t]) -> tk t = TRbrace -> (length ts < fuel)%nat ->
  p_err p = false -> p_bitmode p = false -> p_structs p = [] -> p_enums p = [] -> NoDup (p_fields p ++ map i_name is) ->
  Forall text (p_fields p ++ map i_name is) -> Forall text s -> Forall text (strs is) -> lenN (LemParse.table s (strs is)) <= 65536 ->
  block_loop E fuel (going p y x pv o s) =
  POk tt (going (set_struct (p_sname p) (p_fields p ++ map i_name is) p) t r (last ts pv)
    (o ++ code (flat_map (item_instrs (index_of (LemParse.table s (strs is)))) is)) (LemParse.table s (strs is))).
Proof.
  induction 1 as [|i is ws wr IR R IH]; intros fuel ts p y x pv o s t r M X P KT L ER BM PS PE ND FT ST TI SL; (destruct fuel as [|fuel]; [lia|]).
  - destruct ts; [|discriminate]. injection X as -> ->. cbn [block_loop]. rewrite bind_cur. rewrite is_kind_true by auto. cbn. rewrite !app_nil_r.
    destruct p. reflexivity.
  - apply map_eq_app in M as (t1 & t2 & -> & M1 & M2). pose proof (item_len _ _ IR) as FL. rewrite <- M1, map_length in FL.
    destruct (item_head _ _ IR) as (w & wt & EW & KW). rewrite app_length in L.
    assert (KY : tk y = TAt \/ tk y = TIdentifier).
    { destruct t1 as [|z t1]; [rewrite EW in M1; discriminate M1|]. injection X as -> _. rewrite EW in M1. apply cons_inv in M1 as (<- & _). exact KW. }
    cbn [block_loop]. rewrite bind_cur, bind_get. change (p_err (going p y x pv o s)) with (p_err p). rewrite ER.
    rewrite !is_kind_false by (destruct KY as [-> | ->]; discriminate). cbn [orb].
    cbn [map flat_map] in ND, FT, SL, TI |- *. apply Forall_app in TI as (TI1 & TI2).
    set (s1 := LemParse.table s (item_names i)). set (T := LemParse.table s (item_names i ++ strs is)) in *.
    assert (ET : T = LemParse.table s1 (strs is)) by apply table_two.
    assert (SL1 : lenN s1 <= 65536) by (pose proof (LemParse.table_len s1 (strs is)); rewrite ET in SL; lia).
    assert (FTP : Forall text (p_fields p)) by (apply Forall_app in FT as (FT & _); exact FT).
    assert (NI : ~ In (i_name i) (p_fields p)) by (intros I; apply NoDup_remove_2 in ND; apply ND; apply in_or_app; auto).
    assert (S1T : Forall text s1) by (apply table_text; auto).
    assert (exists h hs, t2 ++ t :: r = h :: hs /\ (t2 = [] -> h = t) /\ plain h /\ Forall plain (t1 ++ [h])) as (h & hs & EH & _ & PH & PT1).
    { rewrite <- app_assoc in P. apply Forall_app in P as (A & B).
      destruct t2 as [|h hs]; [exists t, r|exists h, (hs ++ t :: r)]; (split; [reflexivity|]); (split; [auto; discriminate|]); pose proof (Forall_inv B) as PH; (split; [exact PH|]);
      apply Forall_app; split; auto. }
    destruct fuel as [|fuel]; [lia|].
    rewrite (bind_ok (parse_field E (S fuel)) _ _ tt (going (set_struct (p_sname p) (p_fields p ++ [i_name i]) p) h hs (last t1 pv)
      (o ++ code (item_instrs (index_of s1) i)) s1)).
    + rewrite (IH (S fuel) t2 (set_struct (p_sname p) (p_fields p ++ [i_name i]) p) h hs _ _ _ t r); auto.
      * f_equal. cbn [p_sname p_fields set_struct]. rewrite <- !app_assoc. cbn [app]. rewrite last_two. rewrite <- ET.
        cbn [flat_map]. unfold code at 2 3. rewrite flat_map_app. fold (code (item_instrs (index_of T) i)).
        rewrite (item_ext (index_of s1) (index_of T)); [reflexivity|]. intros n I.
        destruct (table_app (strs is) s1) as (q & Eq). rewrite ET, Eq. symmetry. apply index_in. apply table_in; auto.
      * rewrite <- app_assoc in P. apply Forall_app in P. apply P.
      * lia.
      * cbn [p_fields set_struct]. rewrite <- app_assoc. exact ND.
      * cbn [p_fields set_struct]. rewrite <- app_assoc. exact FT.
      * rewrite <- ET. exact SL.
    + apply (item_run E i ws IR); auto using no_structs; [now rewrite X, <- app_assoc, EH|lia].
Qed.

(** ** The packet *)
Lemma names_incl is : incl (map i_name is) (strs is).
Proof.
  intros n I. apply in_map_iff in I as (i & <- & I). apply in_flat_map. exists i. split; auto. unfold item_names. destruct (i_what i); cbn; auto.
Qed.
Lemma lists_packet_run E is ws : items_read is ws -> forall fuel ts p nt lb rb e pv o s n,
  map word_of ts = ws -> word_of nt = (TIdentifier, n) -> tk lb = TLbrace -> tk rb = TRbrace -> tk e = TEof ->
  Forall plain ts -> (length ts + 1 < fuel)%nat ->
  p_err p = false -> p_bitmode p = false -> p_structs p = [] -> p_enums p = [] -> NoDup (map i_name is) ->
  Forall text (strs is) -> Forall text s -> lenN (LemParse.table s (strs is ++ [n])) <= 65536 ->
  let T := LemParse.table s (strs is ++ [n]) in
  parse_packet E fuel (going p nt (lb :: ts ++ [rb; e]) pv o s) =
  POk tt (going (set_struct (p_sname p) [] p) e [e] rb (o ++ code (ins 0x07 [index_of T n] [] :: flat_map (item_instrs (index_of T)) is)) T).
Proof.
  intros R fuel ts p nt lb rb e pv o s n M WN KL KR KE P L ER BM PS PE ND FT ST SL T. unfold parse_packet.
  assert (PB : plain lb) by (split; congruence). assert (PR : plain rb) by (split; congruence).
  assert (exists z zs, ts ++ [rb; e] = z :: zs /\ plain z) as (z & zs & EZ & PZ).
  { destruct ts as [|z zs]; [exists rb, [e]|exists z, (zs ++ [rb; e])]; (split; [reflexivity|]); auto. exact (Forall_inv P). }
  rewrite bind_cur, bind_con; [|exact (word_kind _ _ _ WN)|auto]. rewrite (word_text _ _ _ WN).
  rewrite bind_get. change (p_structs (going p lb (ts ++ [rb; e]) nt o s)) with (p_structs p). change (p_enums (going p lb (ts ++ [rb; e]) nt o s)) with (p_enums p).
  rewrite PS, PE. cbn [find_struct find_enum find option_map some orb]. rewrite bind_when. unfold here. rewrite bind_get, bind_emit.
  change (p_out (going p lb (ts ++ [rb; e]) nt o s)) with o. rewrite bind_at, is_kind_false by congruence.
  rewrite bind_bind. unfold upd_p at 1. unfold pbind at 1.
  change (set_struct (p_sname (going p lb (ts ++ [rb; e]) nt (o ++ [7] ++ le2 65535) s)) [] (going p lb (ts ++ [rb; e]) nt (o ++ [7] ++ le2 65535) s))
    with (going (set_struct (p_sname p) [] p) lb (ts ++ [rb; e]) nt (o ++ [7] ++ le2 65535) s).
  set (p1 := set_struct (p_sname p) [] p). destruct fuel as [|fuel]; [lia|]. rewrite bind_bind. cbn [parse_block]. rewrite bind_bind, EZ, bind_con by auto.
  rewrite bind_bind.
  assert (SF : lenN (LemParse.table s (strs is)) <= 65536) by (rewrite table_snoc in SL; pose proof (LemParse.table_len (LemParse.table s (strs is)) [n]); lia).
  rewrite (bind_ok (block_loop E fuel) _ _ tt (going (set_struct (p_sname p1) (p_fields p1 ++ map i_name is) p1) rb [e] (last ts lb)
     ((o ++ [7] ++ le2 65535) ++ code (flat_map (item_instrs (index_of (LemParse.table s (strs is)))) is)) (LemParse.table s (strs is)))).
  2:{ apply (items_run E is ws R); auto; [apply Forall_app; auto|lia|]. cbn [p_fields p1 set_struct app].
      apply Forall_forall. intros q I. apply (proj1 (Forall_forall _ _) FT). now apply names_incl. }
  rewrite bind_end by auto. unfold upd_p, pbind at 1.
  set (o2 := _ ++ code _). set (s2 := LemParse.table s _).
  match goal with |- pbind _ _ ?q = _ => change q with (going p1 e [e] rb o2 s2) end.
  assert (TX : Forall text s2) by (apply table_text; auto).
  assert (ET : T = table1 s2 n) by (unfold T, s2; rewrite table_snoc; reflexivity).
  rewrite bind_name; [|exact TX|rewrite <- ET; exact SL]. rewrite <- ET.
  unfold o2. fold s2. replace (lenN o + 1) with (lenN (o ++ [7])) by (rewrite lenN_app; reflexivity).
  replace ((o ++ [7] ++ le2 65535) ++ code (flat_map (item_instrs (index_of s2)) is)) with ((o ++ [7]) ++ le2 65535 ++ code (flat_map (item_instrs (index_of s2)) is))
    by (now rewrite <- !app_assoc).
  pose proof (bind_write (fun x => ret x) p1 e [e] rb (o ++ [7]) (le2 65535) (code (flat_map (item_instrs (index_of s2)) is)) T (le2 (index_of T n)) eq_refl) as BW.
  assert (RB : forall (m : par unit) q, pbind m (fun x => ret x) q = m q) by (intros m q; unfold pbind, ret; destruct (m q); reflexivity).
  rewrite RB in BW. rewrite BW. unfold ret. f_equal. f_equal.
  rewrite <- app_assoc. f_equal. cbn [code flat_map instr_bytes opcode refs args ins app]. rewrite le2_bytes. cbn [app]. f_equal.
  unfold bytes_of. rewrite !app_nil_r. f_equal. unfold code. f_equal.
  assert (EF : forall l, incl l is -> flat_map (item_instrs (index_of s2)) l = flat_map (item_instrs (index_of T)) l).
  { induction l as [|f l IH]; intros I; [reflexivity|]. cbn [flat_map]. rewrite IH by (intros q; intros; apply I; right; auto). f_equal. apply item_ext.
    intros m J. rewrite ET. destruct (table1_app s2 n) as (q & ->). symmetry. apply index_in. unfold s2.
    apply (table_in (strs is) s); auto. right. apply in_flat_map. exists f. split; auto. apply I. left. auto. }
  apply EF. apply incl_refl.
Qed.

Lemma lists_file_run E k ws : lists_read k ws -> forall fuel path src toks,
  lex src = Some toks -> map word_of toks = ws ++ [(TEof, [])] -> Forall text (ls_names k) -> NoDup (map i_name (ls_items k)) ->
  (length toks < fuel)%nat -> lenN (LemParse.table [] (ls_names k)) <= 65536 ->
  let T := LemParse.table [] (ls_names k) in
  exists p, parse_file E fuel path src = POk tt p /\ p_err p = false /\ p_strs p = T /\ p_out p = code (lists_instrs (index_of T) k).
Proof.
  intros (os & fw & OR & FR & ->) fuel path src toks LX M TX ND L SL T. unfold parse_file. rewrite LX.
  rewrite <- !app_assoc in M. apply map_eq_app in M as (t1 & tt1 & -> & M1 & M). cbn [app] in M. one_token. one_token. one_token.
  apply map_eq_app in M as (ft & tt2 & -> & M2 & M). one_token. one_token. one_token.
  rename t into kw, t0 into nt, t2 into lb, t3 into rb, t4 into e.
  assert (P1 : Forall plain t1) by (apply plain_words; rewrite M1; eapply orders_plain; eauto).
  assert (P2 : Forall plain ft) by (apply plain_words; rewrite M2; eapply items_plain_words; eauto).
  assert (PK : plain kw) by (split; rewrite (word_kind _ _ _ W); discriminate).
  assert (PN : plain nt) by (split; rewrite (word_kind _ _ _ W0); discriminate).
  assert (PL : plain lb) by (split; rewrite (word_kind _ _ _ W1); discriminate).
  set (rest := nt :: lb :: ft ++ [rb; e]) in *.
  assert (exists z zs, t1 ++ kw :: rest = z :: zs /\ plain z /\ (tk z = TAt \/ tk z = TPacket)) as (z & zs & EZ & PZ & KZ).
  { destruct t1 as [|z zs]; [exists kw, rest|exists z, (zs ++ kw :: rest)]; (split; [reflexivity|]); (split; [auto; exact (Forall_inv P1)|]).
    - right. exact (word_kind _ _ _ W).
    - left. pose proof (order_at _ _ _ OR) as K. rewrite <- M1 in K. exact K. }
  set (p0 := parser0 path (t1 ++ kw :: rest)).
  assert (LO : (length t1 = 2 * length (ls_orders k))%nat) by (rewrite <- (orders_len _ _ _ OR), <- M1; now rewrite map_length).
  unfold rest in L. rewrite app_length in L. cbn [length] in L. rewrite app_length in L. cbn [length] in L. fold rest in L.
  assert (A : advance p0 = POk tt (going p0 z zs token0 [] [])).
  { change p0 with (going p0 token0 (t1 ++ kw :: rest) token0 [] []) at 1. rewrite EZ. now apply advance_going. }
  rewrite (bind_ok advance _ _ tt _ A). destruct fuel as [|fuel]; [lia|]. cbn [top_level]. rewrite bind_cur, bind_get.
  change (p_err (going p0 z zs token0 [] [])) with false. rewrite !is_kind_false by (destruct KZ as [-> | ->]; discriminate). cbn [orb].
  rewrite (bind_ok (top_decorators E fuel) _ _ tt (going p0 kw rest (last t1 token0) ([] ++ code (order_code (ls_orders k))) [])).
  2:{ apply (top_orders_run E _ os OR); auto; [apply Forall_app; auto|rewrite (word_kind _ _ _ W); discriminate|lia]. }
  rewrite bind_get. cbv beta. change (p_cur (going p0 kw rest (last t1 token0) ([] ++ code (order_code (ls_orders k))) [])) with kw.
  rewrite (word_kind _ _ _ W). cbv iota. rewrite bind_bind, bind_get.
  change (p_packets (going p0 kw rest (last t1 token0) ([] ++ code (order_code (ls_orders k))) [])) with 0. change (0 <? 0) with false. rewrite bind_bind, bind_when.
  rewrite bind_bind. unfold upd_p. unfold pbind at 1.
  match goal with |- context [pbind _ _ ?q = _] => change q with (going (set_packets 1 p0) kw rest (last t1 token0) (code (order_code (ls_orders k))) []) end.
  rewrite bind_bind. unfold rest. rewrite bind_adv by auto.
  set (p1 := set_packets 1 p0).
  apply Forall_app in TX as TX'. destruct TX' as (TF & TN).
  rewrite (bind_ok (parse_packet E fuel) _ _ tt _ (lists_packet_run E (ls_items k) fw FR fuel ft p1 nt lb rb e kw _ [] (ls_name k) M2 W0
    (word_kind _ _ _ W1) (word_kind _ _ _ W2) (word_kind _ _ _ W3) P2 ltac:(lia) eq_refl eq_refl eq_refl eq_refl ND TF ltac:(constructor) SL)).
  fold (ls_names k). fold T. destruct fuel as [|fuel]; [lia|]. cbn [top_level]. rewrite bind_cur, bind_get. rewrite is_kind_true by exact (word_kind _ _ _ W3). cbn [orb].
  rewrite bind_get. match goal with |- context [when ?b error ?q] => change (when b error q) with (POk tt q) end.
  eexists. split; [reflexivity|]. split; [reflexivity|]. split; [reflexivity|].
  unfold lists_instrs, code, order_code. rewrite flat_map_app. reflexivity.
Qed.

(** ** Renumbering *)
Definition item_sym (i : item) : list sym :=
  (if i_big i then [(0x02, [], [])] else []) ++
  match i_what i with
  | Plain c => content_sym c (i_name i)
  | Listed ref ty => [(0x3B, [i_name i; ref], []); (ty, [i_name i], []); (0x38, [], [])]
  | Rest ty => [(0x3A, [i_name i], []); (ty, [i_name i], []); (0x38, [], [])]
  end ++ (if i_big i then [(0x01, [], [])] else []).
Definition lists_sym (k : lists) : list sym :=
  map (fun b : bool => ((if b then 0x02 else 0x01), [], [])) (ls_orders k) ++ (0x07, [ls_name k], []) :: flat_map item_sym (ls_items k).
Lemma item_sym_ok id i : item_instrs id i = map (inst id) (item_sym i).
Proof. unfold item_instrs, item_sym. destruct (i_big i), (i_what i) as [[ty [|n|w]|m|w]|ref ty|ty]; reflexivity. Qed.
Lemma lists_sym_ok id k : lists_instrs id k = map (inst id) (lists_sym k).
Proof.
  unfold lists_instrs, lists_sym. rewrite map_app, map_map. f_equal. cbn [map]. f_equal.
  induction (ls_items k) as [|f l IH]; [reflexivity|]. cbn [flat_map]. rewrite map_app, item_sym_ok. f_equal. exact IH.
Qed.
Definition what_wf (w : what) : Prop := match w with Plain c => content_ok c | Listed _ ty | Rest ty => 0x10 <= ty <= 0x1A end.
Lemma items_ok is ws : items_read is ws -> Forall (fun i => what_wf (i_what i)) is.
Proof.
  induction 1 as [|i l ws wr IR]; constructor; auto. destruct IR as [l0 c n ws' (os & a & b & _ & CR & _)|l1 l2 os1 os2 cw ref ty sw n OR1 OR2 IC IT|l1 l2 os1 os2 ty sw n OR1 OR2 IT]; cbn [i_what what_wf].
  - eapply read_ok; eauto.
  - now apply type_facts in IT.
  - now apply type_facts in IT.
Qed.
Lemma lists_syms k : Forall (fun i => what_wf (i_what i)) (ls_items k) -> Forall sym_ok (lists_sym k).
Proof.
  intros F. unfold lists_sym. apply Forall_app. split.
  - apply Forall_forall. intros x I. apply in_map_iff in I as (b & <- & _). destruct b; easy_sym.
  - constructor; [easy_sym|]. induction F as [|f l O F IH]; [constructor|]. cbn [flat_map]. apply Forall_app. split; auto.
    unfold item_sym. repeat (apply Forall_app; split); try (destruct (i_big f); constructor; [easy_sym|constructor]).
    destruct (i_what f) as [c|ref ty|ty]; cbn [what_wf] in O; [now apply content_syms| |]; repeat apply Forall_cons; try apply Forall_nil; auto using type_sym; easy_sym.
Qed.
Lemma item_sym_names i n : (exists x, In x (item_sym i) /\ In n (snd (fst x))) <-> In n (item_names i).
Proof.
  unfold item_sym, item_names. split.
  - intros (x & I & J). rewrite !in_app_iff in I. destruct I as [I|[I|I]].
    + destruct (i_big i); [destruct I as [<-|[]]; destruct J|destruct I].
    + destruct (i_what i) as [c|ref ty|ty]; [apply content_names in I as [E|E]; rewrite E in J; [exact J|destruct J]| |];
        cbn [In] in I; repeat (destruct I as [<-|I]; [cbn in J |- *; intuition|]); destruct I.
    + destruct (i_big i); [destruct I as [<-|[]]; destruct J|destruct I].
  - intros J. destruct (i_what i) as [c|ref ty|ty].
    + destruct J as [<-|[]]. destruct (content_first c (i_name i)) as (x & l & E & EN). exists x. rewrite E, EN, !in_app_iff. split; [right; left; left; auto|left; auto].
    + exists (0x3B, [i_name i; ref], []). rewrite !in_app_iff. split; [right; left; left; auto|]. cbn in J |- *. intuition.
    + exists (0x3A, [i_name i], []). rewrite !in_app_iff. split; [right; left; left; auto|]. exact J.
Qed.
Lemma lists_sym_names k n : (exists x, In x (lists_sym k) /\ In n (snd (fst x))) <-> In n (ls_names k).
Proof.
  unfold lists_sym, ls_names. rewrite in_app_iff, in_flat_map. split.
  - intros (x & I & J). apply in_app_iff in I as [I|[<-|I]].
    + apply in_map_iff in I as (b & <- & _). destruct J.
    + right. exact J.
    + apply in_flat_map in I as (f & I & K). left. exists f. split; auto. apply item_sym_names. eauto.
  - intros [(f & I & J)|[<-|[]]].
    + apply item_sym_names in J as (x & K & J). exists x. split; auto. apply in_app_iff. right. right. apply in_flat_map. eauto.
    + exists (0x07, [ls_name k], []). split; [|left; auto]. apply in_app_iff. right. left. auto.
Qed.
Lemma compile_lists E k ws path src toks : lists_read k ws -> e_read E (e_canon E path) = Some src -> lex src = Some toks ->
  map word_of toks = ws ++ [(TEof, [])] -> Forall text (ls_names k) -> NoDup (map i_name (ls_items k)) -> lenN (ls_names k) <= 65536 ->
  exists names, NoDup names /\ (forall s, In s names <-> In s (ls_names k)) /\
    forall fuel, (length toks < fuel)%nat -> compile_file E fuel path = CImage (image names (code (lists_instrs (index_of names) k))).
Proof.
  intros PR RD LX M TX ND LN. set (T := LemParse.table [] (ls_names k)).
  assert (SL : lenN T <= 65536).
  { assert (G : forall ns t, lenN (LemParse.table t ns) <= lenN t + lenN ns).
    { induction ns as [|n r IH]; intros t; [change (LemParse.table t []) with t; lia|]. specialize (IH (table1 t n)). change (LemParse.table t (n :: r)) with (LemParse.table (table1 t n) r).
      rewrite lenN_cons. unfold table1 at 2, strtab_add in IH. destruct strtab_find; cbn [fst] in IH; [lia|]. rewrite lenN_app in IH. change (lenN [n]) with 1 in IH. lia. }
    specialize (G (ls_names k) []). rewrite lenN_nil in G. unfold T. lia. }
  assert (IN : forall s, In s T <-> In s (ls_names k)).
  { intros s. split; [intros I; apply table_sub in I as [[]|I]; auto|intros I; apply table_in; auto]. }
  destruct PR as (os & fw & OR & FR & EW). pose proof (lists_syms k (items_ok _ _ FR)) as SO.
  assert (NT : Forall (fun x : sym => Forall (fun n => In n T) (snd (fst x))) (lists_sym k)).
  { apply Forall_forall. intros x I. apply Forall_forall. intros n J. apply IN. apply lists_sym_names. eauto. }
  assert (WF : Forall (well_formed T) (lists_instrs (index_of T) k) /\ Forall optimiser_reads (lists_instrs (index_of T) k)).
  { rewrite lists_sym_ok. split; apply Forall_forall; intros i I; apply in_map_iff in I as (x & <- & I);
      pose proof (proj1 (Forall_forall _ _) SO x I) as O; pose proof (proj1 (Forall_forall _ _) NT x I) as Q; destruct x as [[op ns] a]; cbn [sym_ok fst snd] in O, Q;
      destruct O as (O1 & O2 & O3 & O4 & O5).
    - split; [exact O1|]. split; [exact O2|]. split; [exact O3|]. cbn [inst ins refs opcode fst snd]. split; [unfold lenN in *; now rewrite map_length|].
      apply Forall_forall. intros z Z. apply in_map_iff in Z as (n & <- & J). pose proof (index_bound T n (proj1 (Forall_forall _ _) Q n J)). lia.
    - unfold optimiser_reads. cbn [inst ins opcode fst snd]. cbn [In] in O5. split; [cbn [In]; intuition|]. split; [intuition|]. intros ->. exfalso. apply O5. auto 8. }
  destruct WF as (WF & OP).
  assert (TT : Forall text T) by (apply table_text; auto).
  assert (TN : T <> []). { intros E0. assert (I : In (ls_name k) T) by (apply IN; unfold ls_names; apply in_or_app; right; left; auto). rewrite E0 in I. destruct I. }
  destruct (optimize_spec T _ TT SL WF OP TN) as (names & p' & EO & SI & ND' & RF).
  pose proof SI as SI'. rewrite lists_sym_ok in SI'. apply renumber in SI'; auto. rewrite <- lists_sym_ok in SI'. subst p'.
  exists names. split; [exact ND'|]. split.
  - intros s. rewrite RF. split.
    + intros (i & kk & I & J & LK & EN). rewrite lists_sym_ok in I. apply in_map_iff in I as (x & <- & I). cbn [inst ins refs] in J. apply in_map_iff in J as (n & <- & J).
      rewrite nth_index in EN by (exact (proj1 (Forall_forall _ _) (proj1 (Forall_forall _ _) NT x I) n J)). subst s. apply lists_sym_names. eauto.
    + intros I. pose proof (proj2 (IN s) I) as IT. apply lists_sym_names in I as (x & I & J). exists (inst (index_of T) x), (index_of T s). rewrite lists_sym_ok.
      split; [now apply in_map|]. split; [cbn [inst ins refs]; now apply in_map|]. split; [now apply index_bound|now apply nth_index].
  - intros fuel L. unfold compile_file. rewrite RD.
    destruct (lists_file_run E k ws ltac:(exists os, fw; auto) fuel (e_canon E path) src toks LX M TX ND L SL) as (p & -> & -> & -> & ->).
    fold T. now rewrite EO.
Qed.

(** ** The image *)
Lemma item_words i ws n : item_read i ws -> In n (item_names i) -> In (TIdentifier, n) ws.
Proof.
  intros [l c m ws' (os & a & b & _ & _ & ->)|l1 l2 os1 os2 cw ref ty sw m OR1 OR2 IC IT|l1 l2 os1 os2 ty sw m OR1 OR2 IT] I;
    cbn [item_names i_what i_name f_name In] in I; rewrite !in_app_iff; cbn [In]; intuition (subst; auto 12).
Qed.
Lemma lists_words k ws n : lists_read k ws -> In n (ls_names k) -> In (TIdentifier, n) ws.
Proof.
  intros (os & fs & _ & FR & ->) I. apply in_or_app. right. unfold ls_names in I. apply in_app_iff in I as [I|[<-|[]]]; [|cbn; auto].
  apply in_or_app. right. apply in_or_app. left. induction FR as [|f l ws wr IR FR IH]; [contradiction|]. apply in_or_app. cbn [flat_map] in I. apply in_app_iff in I as [I|I]; [left|right; auto].
  eapply item_words; eauto.
Qed.
Lemma lists_text E path k toks : holds_lists E path k toks -> Forall text (ls_names k).
Proof.
  intros (src & ws & RD & LX & M & PR & ND). apply Forall_forall. intros n I. apply (lists_words k ws n PR) in I. apply alnum_text.
  assert (T : tokens_of 0 src toks).
  { destruct (lex_from_spec (Datatypes.S (List.length src)) src 0 1 ltac:(lia)) as (ts & L & T). unfold lex in LX. rewrite L in LX. injection LX as <-. exact T. }
  apply (token_names _ _ _ T). rewrite M. apply in_or_app. now left.
Qed.
Lemma lists_wire E path k toks : holds_lists E path k toks ->
  lenN (ls_names k) <= 65535 -> 16 + table_bytes (ls_names k) < 2 ^ 32 ->
  exists im pr id, (forall fuel, (List.length toks < fuel)%nat -> compile_file E fuel path = CImage im) /\
    load_il im = Ok (Loaded pr) /\
    (forall n, In n (ls_names k) -> exists p, get_key_name im pr (id n) = Ok (Some p) /\ string_at im p n) /\
    (forall n, In n (ls_names k) -> id n < lenN (ls_names k)) /\
    sub im (pr_bytecode pr) (pr_bytecode_len pr) = code (lists_instrs id k).
Proof.
  intros HP LN TB. pose proof (lists_text _ _ _ _ HP) as TK. destruct HP as (src & ws & RD & LX & M & PR & NDF).
  destruct (compile_lists E k ws path src toks PR RD LX M TK NDF ltac:(lia)) as (names & ND & IN & C).
  destruct (fewer_bytes names ND (ls_names k) ltac:(intros x I; now apply IN)) as (L & B).
  assert (TX : Forall text names) by (apply Forall_forall; intros x I; apply (proj1 (Forall_forall _ _) TK); now apply IN).
  set (bc := code (lists_instrs (index_of names) k)) in *.
  exists (image names bc), (prog names bc), (index_of names). split; [exact C|]. split; [apply load_image; auto; lia|]. split; [|split].
  - intros n I. apply IN in I. pose proof (index_bound names n I) as IB. destruct (name_of names bc TX ltac:(lia) ltac:(lia) _ IB) as (p & A & D).
    exists p. split; [exact A|]. now rewrite nth_index in D.
  - intros n I. apply IN in I. pose proof (index_bound names n I). lia.
  - apply prog_code; auto; lia.
Qed.
