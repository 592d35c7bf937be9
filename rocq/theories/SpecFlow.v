(** Conditionals and switches: the code they are compiled to, and what running such code means. *)
From Verif Require Import Base SpecBytes ModelFloat ModelVM SpecVM ModelText ModelParse ModelSchema.

(** The code [c] stands at position [q] of the bytecode *)
Definition placed (bc : list N) (q : N) (c : list N) : Prop := sub bc q (lenN c) = c /\ q + lenN c <= lenN bc.
Definition within (a b i : N) : Prop := a <= i < b.

(** ** Layout *)

(** if: the condition, JUMP_IF_NOT over the first branch and the jump that ends it, JUMP over the second *)
Definition if_code (cond thn els : list N) : list N :=
  cond ++ [0x50] ++ bytes_of LE 4 (lenN thn + 5) ++ thn ++ [0x52] ++ bytes_of LE 4 (lenN els) ++ els.

(** The bodies of a switch in source order, each under a value, or the default ([None]).  Offsets count from the first. *)
Definition body : Type := (option N * list N)%type.
Fixpoint total (l : list body) : N :=
  match l with [] => 0 | (_, c) :: r => lenN c + 5 + total r end.
Fixpoint cases_from (at_ : N) (l : list body) : list (N * N) :=
  match l with
  | [] => []
  | (o, c) :: r => match o with Some v => [(v, at_)] | None => [] end ++ cases_from (at_ + lenN c + 5) r
  end.
Fixpoint default_from (at_ : N) (l : list body) : option N :=
  match l with
  | [] => None
  | (o, c) :: r =>
    match default_from (at_ + lenN c + 5) r with
    | Some d => Some d
    | None => match o with None => Some at_ | Some _ => None end
    end
  end.
(** Each body ends with a jump behind the tables, which take [after] bytes *)
Fixpoint bodies_code (l : list body) (after : N) : list N :=
  match l with
  | [] => []
  | (_, c) :: r => c ++ [0x52] ++ bytes_of LE 4 (total r + after) ++ bodies_code r after
  end.
Definition list_table (cases : list (N * N)) (default : N) : list N :=
  bytes_of LE 2 (lenN cases) ++ bytes_of LE 4 default ++
  flat_map (fun c => bytes_of LE 8 (fst c) ++ bytes_of LE 4 (snd c)) cases.
Definition dense_table (mn : N) (n : nat) (cases : list (N * N)) (default : N) : list N :=
  bytes_of LE 8 mn ++ bytes_of LE 8 (mn + N.of_nat n) ++ bytes_of LE 4 default ++
  flat_map (fun i => bytes_of LE 4 (dispatch cases default (mn + N.of_nat i))) (seq 0 (S n)).
(** The default's offset: its body, or behind the tables *)
Definition default_offset (l : list body) (size : N) : N :=
  match default_from 0 l with Some d => d | None => total l + size end.
(** [switch_code key l c]: [c] is the code of the switch on the field [key] with the bodies [l], with a list of cases, or
    with a table for the values [mn] to [mn + n], among which are all the cases *)
Inductive switch_code (key : N) (l : list body) : list N -> Prop :=
| code_list : lenN (cases_from 0 l) < 2 ^ 16 -> Forall (fun c => fst c < 2 ^ 64) (cases_from 0 l) ->
    let size := 6 + 12 * lenN (cases_from 0 l) in
    switch_code key l ([0x51] ++ bytes_of LE 2 key ++ bytes_of LE 4 (total l) ++ bodies_code l size ++
                       list_table (cases_from 0 l) (default_offset l size))
| code_dense mn n : Forall (fun c => mn <= fst c <= mn + N.of_nat n) (cases_from 0 l) -> mn + N.of_nat n < 2 ^ 64 ->
    let size := 20 + 4 * (N.of_nat n + 1) in
    switch_code key l ([0x53] ++ bytes_of LE 2 key ++ bytes_of LE 4 (total l) ++ bodies_code l size ++
                       dense_table mn n (cases_from 0 l) (default_offset l size)).

(** ** Meaning *)

(** What a switch on the value [v] selects: what is under [v], otherwise the default (the last of several) *)
Fixpoint under {A} (l : list (option N * A)) (v : N) : option A :=
  match l with
  | [] => None
  | (Some x, a) :: r => if v =? x then Some a else under r v
  | (None, _) :: r => under r v
  end.
Fixpoint otherwise {A} (l : list (option N * A)) : option A :=
  match l with
  | [] => None
  | (o, a) :: r =>
    match otherwise r with
    | Some d => Some d
    | None => match o with None => Some a | Some _ => None end
    end
  end.
Definition chosen {A} (l : list (option N * A)) (v : N) : option A :=
  match under l v with Some a => Some a | None => otherwise l end.

Section Meaning.
  Context {H : Type} (host : H -> request -> H * reply) (lm : libm).

  (** A run from one state to another all of whose instructions are at positions in [A] *)
  Inductive walks_in (bc : list N) (A : N -> Prop) : st -> H -> st -> H -> Prop :=
  | walk_none s h : walks_in bc A s h s h
  | walk_more s h s' h' s2 h2 t : walks_in bc A s h s' h' -> A (ip s') -> ip s' < lenN bc ->
      interp host (step lm bc s') h' = (SCont s2, h2, t) -> walks_in bc A s h s2 h2.

  (** What a piece of code does with the state and the host, whatever the positions *)
  Definition effect : Type := st -> H -> st -> H -> Prop.
  (** Wherever it stands, [c] runs from its start to its end without leaving, with effect [R] *)
  Definition does (c : list N) (R : effect) : Prop :=
    forall bc q, wf_bytes bc -> lenN bc < 2 ^ 31 -> placed bc q c ->
    forall s h s' h', R s h s' h' ->
    walks_in bc (within q (q + lenN c)) (set_ip s q) h (set_ip s' (q + lenN c)) h'.

  Definition nothing : effect := fun s h s' h' => s' = s /\ h' = h.
  Definition followed (R1 R2 : effect) : effect := fun s h s' h' => exists s1 h1, R1 s h s1 h1 /\ R2 s1 h1 s' h'.
  (** Fields asked for while an expression is evaluated *)
  Fixpoint asking (e : iexpr) (h : H) : H :=
    match e with
    | ELit _ => h
    | EField k => fst (host h (ask k 0x60 (cvar 8 0) HQuery))
    | EBin _ a b => asking b (asking a h)
    | EUn _ a => asking a h
    end.
  (** The value of the expression is pushed *)
  Definition computes (val : N -> N) (e : iexpr) : effect := fun s h s' h' =>
    lenN (stk s) + slots e <= 8 /\ h' = asking e h /\ exists v, ieval val e = EVal v /\ s' = set_stk s (v :: stk s).
  (** The condition leaves its value on the stack, and one of the branches runs without it *)
  Definition if_effect (C T E : effect) : effect := fun s h s' h' =>
    exists s1 h1 v rest, C s h s1 h1 /\ stk s1 = v :: rest /\ (if v =? 0 then E else T) (set_stk s1 rest) h1 s' h'.
  (** The host is asked for the field, and the body chosen runs, if any *)
  Definition switch_effect (key : N) (l : list (option N * effect)) : effect := fun s h s' h' =>
    exists h1 r, host h (ask key 0x06 (cvar 8 0) HQuery) = (h1, r) /\ r_ok r = true /\
    match chosen l (answer 8 0 r) with Some R => R s h1 s' h' | None => nothing s h1 s' h' end.
End Meaning.

(** ** Where the pieces come from *)

(** Running [m] in the parser state [p] appends [c] to the code and ends in [p'] *)
Definition appends {A} (m : par A) (p : pst) (c : list N) (p' : pst) : Prop :=
  exists a, m p = POk a p' /\ p_out p' = p_out p ++ c.
(** [p] with [c] appended to its code *)
Definition more (c : list N) (p : pst) : pst := set_out (p_out p ++ c) p.

(** The bodies of a switch, read with fuel [f] from [p] on; [p'] is where none follows.  After each body the compiler leaves
    room for the jump.  A body is a block in braces or a single field. *)
Inductive reads_cases (E : env) : nat -> pst -> list body -> pst -> Prop :=
| cases_end f p : tk (p_cur p) <> TCase -> tk (p_cur p) <> TDefault -> reads_cases E f p [] p
| cases_case f p v p1 c p2 l p' : tk (p_cur p) = TCase ->
    (advance ;; let% v := case_value in consume TColon ;; ret v) p = POk v p1 ->
    appends (if is_kind TLbrace (p_cur p1) then parse_block E f else parse_field E f) p1 c p2 ->
    reads_cases E f (more [0x52; 0; 0; 0; 0] p2) l p' -> reads_cases E (S f) p ((Some v, c) :: l) p'
| cases_default f p p1 c p2 l p' : tk (p_cur p) = TDefault ->
    (advance ;; consume TColon) p = POk tt p1 ->
    appends (if is_kind TLbrace (p_cur p1) then parse_block E f else parse_field E f) p1 c p2 ->
    reads_cases E f (more [0x52; 0; 0; 0; 0] p2) l p' -> reads_cases E (S f) p ((None, c) :: l) p'.
(** The values, in order *)
Fixpoint values (l : list body) : list N :=
  match l with [] => [] | (Some v, _) :: r => v :: values r | (None, _) :: r => values r end.
