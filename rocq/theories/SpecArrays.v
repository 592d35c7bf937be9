(** Packets with arrays counted by another field and arrays that fill the rest of the message: how they are written, the
    instructions and bytes they stand for, and how the host supplies or receives them. *)
From Coq Require Import Strings.String.
From Verif Require Import Base SpecBytes SpecVM ModelText SpecText ModelVM ModelTrans ModelParse SpecParse SpecNames SpecPacket SpecMessage.

(** ** Items *)

(** A plain field; as many values as the field [ref] says; values up to the end of the message *)
Inductive what := Plain (c : content) | Listed (ref : list N) (ty : N) | Rest (ty : N).
(** The byte-order decorators ([true]: big endian), what it is, and its name *)
Record item := { i_orders : list bool; i_what : what; i_name : list N }.
Definition i_big (i : item) : bool := last (i_orders i) false.
(** The names an item mentions, in the order in which they are written *)
Definition item_names (i : item) : list (list N) :=
  match i_what i with Listed ref _ => [ref; i_name i] | _ => [i_name i] end.

Definition count_words : list string := ["count"; "len"]%string.
(** Byte-order decorators may stand before and after the decorator that makes the array *)
Inductive item_read : item -> list word -> Prop :=
| item_plain l c n ws : field_read {| f_orders := l; f_content := c; f_name := n |} ws ->
    item_read {| i_orders := l; i_what := Plain c; i_name := n |} ws
| item_listed l1 l2 os1 os2 cw ref ty s n : orders_read order_words l1 os1 -> orders_read order_words l2 os2 ->
    In cw count_words -> In (ty, s) type_words ->
    item_read {| i_orders := l1 ++ l2; i_what := Listed ref ty; i_name := n |}
      (os1 ++ [sign TAt "@"; ident cw; sign TLparen "("; (TIdentifier, ref); sign TRparen ")"] ++ os2 ++
       [ident s; (TIdentifier, n); sign TLbracket "["; sign TRbracket "]"; sign TSemicolon ";"])
| item_rest l1 l2 os1 os2 ty s n : orders_read order_words l1 os1 -> orders_read order_words l2 os2 -> In (ty, s) type_words ->
    item_read {| i_orders := l1 ++ l2; i_what := Rest ty; i_name := n |}
      (os1 ++ [sign TAt "@"; ident "eof"] ++ os2 ++
       [ident s; (TIdentifier, n); sign TLbracket "["; sign TRbracket "]"; sign TSemicolon ";"]).
Inductive items_read : list item -> list word -> Prop :=
| items_none : items_read [] []
| items_more i l ws wr : item_read i ws -> items_read l wr -> items_read (i :: l) (ws ++ wr).

(** A file with one packet *)
Record lists := { ls_orders : list bool; ls_name : list N; ls_items : list item }.
Definition lists_read (k : lists) (ws : list word) : Prop :=
  exists os fs, orders_read top_order_words (ls_orders k) os /\ items_read (ls_items k) fs /\
  ws = os ++ [sign TPacket "packet"; (TIdentifier, ls_name k); sign TLbrace "{"] ++ fs ++ [sign TRbrace "}"].
Definition ls_names (k : lists) : list (list N) := flat_map item_names (ls_items k) ++ [ls_name k].
Definition holds_lists (E : env) (path : list N) (k : lists) (toks : list token) : Prop :=
  exists src ws, e_read E (e_canon E path) = Some src /\ lex src = Some toks /\ map word_of toks = ws ++ [(TEof, [])] /\
    lists_read k ws /\ NoDup (map i_name (ls_items k)).

(** ** Instructions, given the numbers of the names *)
Definition what_instrs (id : list N -> N) (w : what) (k : N) : list instr :=
  match w with
  | Plain c => content_instrs c k
  | Listed ref ty => [ins 0x3B [k; id ref] []; ins ty [k] []; ins 0x38 [] []]
  | Rest ty => [ins 0x3A [k] []; ins ty [k] []; ins 0x38 [] []]
  end.
Definition item_instrs (id : list N -> N) (i : item) : list instr :=
  (if i_big i then [ins 0x02 [] []] else []) ++ what_instrs id (i_what i) (id (i_name i)) ++
  (if i_big i then [ins 0x01 [] []] else []).
Definition lists_instrs (id : list N -> N) (k : lists) : list instr :=
  map (fun b : bool => ins (if b then 0x02 else 0x01) [] []) (ls_orders k) ++
  ins 0x07 [id (ls_name k)] [] :: flat_map (item_instrs id) (ls_items k).

(** ** Messages *)

(** An array without a counter of its own is just its values *)
Definition item_ok (w : what) (d : datum) : Prop :=
  match w, d with
  | Plain c, _ => datum_ok c d
  | Listed _ ty, Values vs => lenN vs < 2 ^ 32 - 1 /\ Forall (number_ok ty) vs
  | Rest ty, Values vs => Forall (number_ok ty) vs
  | _, _ => False
  end.
Definition item_bytes (o : endian) (w : what) (d : datum) : list N :=
  match w, d with
  | Plain c, _ => datum_bytes o c d
  | Listed _ ty, Values vs | Rest ty, Values vs => numbers o ty vs
  | _, _ => []
  end.
Definition item_size (w : what) (d : datum) : N := lenN (item_bytes LE w d).
(** A big-endian item leaves the packet in little-endian order (see C46) *)
Fixpoint items_bytes (o : endian) (is : list item) (ds : list datum) : list N :=
  match is, ds with
  | i :: is, d :: ds => item_bytes (if i_big i then BE else o) (i_what i) d ++ items_bytes (if i_big i then LE else o) is ds
  | _, _ => []
  end.
Definition lists_order (k : lists) : endian := if last (ls_orders k) false then BE else LE.
Definition lists_bytes (k : lists) (ds : list datum) : list N := items_bytes (lists_order k) (ls_items k) ds.

Definition is_rest (i : item) : Prop := exists ty, i_what i = Rest ty.
(** Only the last item may take the rest of the message *)
Fixpoint rest_last (is : list item) : Prop :=
  match is with [] => True | i :: r => (is_rest i -> r = []) /\ rest_last r end.
Definition has_rest (is : list item) : Prop := Exists is_rest is.

(** ** Conversations *)

(** Encoding: the host is asked for the value of the counting field and told of the count. Values up to the end of the message
    come one by one. *)
Inductive gives_item (id : list N -> N) (k pos : N) (old : list N) : what -> datum -> list event -> Prop :=
| give_plain c d t : gives k pos old c d t -> gives_item id k pos old (Plain c) d t
| give_listed ref ty vs r1 r2 t : r_ok r1 = true -> answer 8 0 r1 = lenN vs -> r_ok r2 = true -> answer 4 (lenN vs) r2 = lenN vs ->
    gives_all k ty pos old vs t ->
    gives_item id k pos old (Listed ref ty) (Values vs)
      ((ask (id ref) 0x06 (cvar 8 0) HQuery, r1) :: (ask k 0x3B (cvar 4 (lenN vs)) HCount, r2) :: t)
| give_no_rest ty : gives_item id k pos old (Rest ty) (Values []) []
| give_rest ty vs r t : vs <> [] -> gives_each k ty vs t -> r_ok r = true ->
    gives_item id k pos old (Rest ty) (Values vs) (t ++ [(end_call, r)]).
Inductive gives_items (id : list N -> N) : N -> list N -> list item -> list datum -> list event -> Prop :=
| gi_none pos old : gives_items id pos old [] [] []
| gi_more pos old i is d ds t1 t2 : gives_item id (id (i_name i)) pos old (i_what i) d t1 ->
    gives_items id (pos + item_size (i_what i) d) (skipn (N.to_nat (item_size (i_what i) d)) old) is ds t2 ->
    gives_items id pos old (i :: is) (d :: ds) (t1 ++ t2).

(** Decoding *)
Inductive told_item (id : list N -> N) (k pos : N) : what -> datum -> list event -> Prop :=
| tell_plain c d t : told k pos c d t -> told_item id k pos (Plain c) d t
| tell_listed ref ty vs r1 r2 t : r_ok r1 = true -> answer 8 0 r1 = lenN vs -> r_ok r2 = true -> answer 4 (lenN vs) r2 = lenN vs ->
    told_all k ty pos vs t ->
    told_item id k pos (Listed ref ty) (Values vs)
      ((ask (id ref) 0x06 (cvar 8 0) HQuery, r1) :: (ask k 0x3B (cvar 4 (lenN vs)) HCount, r2) :: t)
| tell_no_rest ty : told_item id k pos (Rest ty) (Values []) []
| tell_rest ty vs r t : vs <> [] -> told_each k ty vs t -> r_ok r = true ->
    told_item id k pos (Rest ty) (Values vs) (t ++ [(end_call, r)]).
Inductive told_items (id : list N -> N) : N -> list item -> list datum -> list event -> Prop :=
| ti_none pos : told_items id pos [] [] []
| ti_more pos i is d ds t1 t2 : told_item id (id (i_name i)) pos (i_what i) d t1 ->
    told_items id (pos + item_size (i_what i) d) is ds t2 -> told_items id pos (i :: is) (d :: ds) (t1 ++ t2).
