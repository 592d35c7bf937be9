(** The command line tool's encode and decode: src/cli/json_binding.c, cmd_encode.c, cmd_decode.c.

    JSON values are trees as the cJSON library holds them; reading and printing JSON text is the library's and is not
    modelled.  A cJSON pointer is a path of child numbers from the root, so that adding to a node shows in its ancestors.
    Simplifications: memory allocation does not fail; hex_mode is 0 here; decode --hex is in [ModelHex]. *)
From Verif Require Import Base ModelWord ModelFloat ModelTrans ModelVM ModelImage.

(** ** cJSON *)

(** Numbers are doubles (bit patterns).  Strings and keys are their bytes without the terminator.  An object's members are a
    list: adding a member does not look for one of the same name. *)
Inductive json :=
| JNull | JBool (b : bool) | JNum (d : N) | JStr (s : list N) | JArr (l : list json) | JObj (l : list (list N * json)).

Definition children (j : json) : list json :=
  match j with JArr l => l | JObj l => map snd l | _ => [] end.
Definition path := list nat.
Fixpoint at_path (j : json) (p : path) : option json :=
  match p with
  | [] => Some j
  | i :: q => match nth_error (children j) i with Some c => at_path c q | None => None end
  end.

(** cJSON_GetObjectItem: the first member whose name is the same up to the case of ASCII letters *)
Definition lower (c : N) : N := if (65 <=? c) && (c <=? 90) then c + 32 else c.
Definition same_key (a b : list N) : bool := if list_eq_dec N.eq_dec (map lower a) (map lower b) then true else false.
Fixpoint find_member (key : list N) (l : list (list N * json)) (i : nat) : option nat :=
  match l with
  | [] => None
  | (k, _) :: r => if same_key k key then Some i else find_member key r (S i)
  end.
Definition get_member (root : json) (p : path) (key : list N) : option path :=
  match at_path root p with
  | Some (JObj l) => match find_member key l 0 with Some i => Some (p ++ [i]) | None => None end
  | _ => None
  end.
(** cJSON_GetArrayItem *)
Definition get_item (root : json) (p : path) (i : N) : option path :=
  match at_path root p with
  | Some j => if i <? lenN (children j) then Some (p ++ [N.to_nat i]) else None
  | None => None
  end.

Fixpoint change {A} (i : nat) (f : A -> A) (l : list A) : list A :=
  match l, i with
  | [], _ => []
  | x :: r, O => f x :: r
  | x :: r, S n => x :: change n f r
  end.
(** cJSON_AddItemToObject and cJSON_AddItemToArray at the node [p]: appended to its children *)
Fixpoint add_at (j : json) (p : path) (key : list N) (v : json) : json :=
  match p with
  | [] => match j with
          | JArr l => JArr (l ++ [v])
          | JObj l => JObj (l ++ [(key, v)])
          | _ => j
          end
  | i :: q => match j with
              | JArr l => JArr (change i (fun c => add_at c q key v) l)
              | JObj l => JObj (change i (fun m => (fst m, add_at (snd m) q key v)) l)
              | _ => j
              end
  end.
(** The pointer to the child added last *)
Definition last_child (j : json) (p : path) : path :=
  match at_path j p with Some c => p ++ [pred (length (children c))] | None => p end.

(** valuedouble and valueint of a parsed item: the number saturated to the range of int; 1 for true *)
Definition valuedouble (j : json) : N := match j with JNum d => d | _ => 0 end.
Definition int_max : Z := 2147483647.
Definition int_min : Z := -2147483648.
Definition valueint (j : json) : result Z :=
  match j with
  | JNum d => if fle F64 (f_of_Z F64 int_max) d then Ok int_max
              else if fle F64 d (f_of_Z F64 int_min) then Ok int_min
              else f_to_int F64 int_min int_max d
  | JBool true => Ok 1%Z
  | _ => Ok 0%Z
  end.

(** ** json_binding.c *)

(** IOCtx, cli_helpers.h:31-49: the stack of objects, innermost first (depth is its length - 1); the stack of arrays,
    innermost first, each with the number of the next element and the depth at its start *)
Record ioctx := { io_root : json; io_stack : list path; io_arrays : list (path * N * N) }.
Definition io_depth (io : ioctx) : N := lenN (io_stack io) - 1.
Definition io_current (io : ioctx) : path := match io_stack io with p :: _ => p | [] => [] end.
Definition with_root (io : ioctx) (j : json) : ioctx := {| io_root := j; io_stack := io_stack io; io_arrays := io_arrays io |}.
Definition with_stack (io : ioctx) (l : list path) : ioctx := {| io_root := io_root io; io_stack := l; io_arrays := io_arrays io |}.
Definition with_arrays (io : ioctx) (l : list (path * N * N)) : ioctx := {| io_root := io_root io; io_stack := io_stack io; io_arrays := l |}.

(** The array whose elements are being processed (json_binding.c:243, 313, 368): its path, the next number, the ones outside *)
Definition in_array (io : ioctx) : option (path * N * list (path * N * N)) :=
  match io_arrays io with
  | (p, i, d) :: r => if io_depth io =? d then Some (p, i, r) else None
  | [] => None
  end.
Definition next_item (io : ioctx) : ioctx :=
  match io_arrays io with (p, i, d) :: r => with_arrays io ((p, i + 1, d) :: r) | [] => io end.

Definition accept : reply := {| r_ok := true; r_val := None; r_str := None; r_bytes := [] |}.
Definition store (v : N) : reply := {| r_ok := true; r_val := Some v; r_str := None; r_bytes := [] |}.
Definition store_str (l : list N) : reply := {| r_ok := true; r_val := None; r_str := Some l; r_bytes := [] |}.
Definition reject : reply := {| r_ok := false; r_val := None; r_str := None; r_bytes := [] |}.

(** get_json_key, json_binding.c:221-224: what follows the last dot *)
Fixpoint json_key (l acc : list N) : list N :=
  match l with
  | [] => rev acc
  | c :: r => if c =? 46 then json_key r [] else json_key r (c :: acc)
  end.
(** json_binding.c:230-234 *)
Definition key_name (names : list (list N)) (key : N) : list N :=
  json_key (if key <? lenN names then nth (N.to_nat key) names [] else []) [].

(** Array notifications (json_binding.c:271) and those that carry a count (49-52, 65-70) *)
Definition is_array_op (op : N) : bool :=
  (op =? 0x35) || (op =? 0x36) || (op =? 0x37) || (op =? 0x34) || (op =? 0x39) || (op =? 0x3B).
Definition is_prefix_op (op : N) : bool := (op =? 0x35) || (op =? 0x36) || (op =? 0x37).

(** handle_array_start, json_binding.c:25-94.  The truncation of the length to the counter's width (67-69) is [got]'s. *)
Definition array_start (m : mode) (io : ioctx) (op : N) (key : list N) : ioctx * reply :=
  match m with
  | Enc =>
    let missing := (io, if is_prefix_op op || (op =? 0x34) then store 0 else accept) in
    match get_member (io_root io) (io_current io) key with
    | None => missing
    | Some p =>
      let enter n :=
        if 31 <=? lenN (io_arrays io) then (io, reject)
        else (with_arrays io ((p, 0, io_depth io) :: io_arrays io), if is_prefix_op op then store n else accept) in
      match at_path (io_root io) p with
      | Some (JArr l) => enter (lenN l)
      | Some (JStr _) => if op =? 0x39 then enter 0 else missing
      | _ => missing
      end
    end
  | Dec =>
    if 31 <=? lenN (io_arrays io) then (io, reject)
    else
      let root := add_at (io_root io) (io_current io) key (JArr []) in
      (with_arrays (with_root io root) ((last_child root (io_current io), 0, io_depth io) :: io_arrays io), accept)
  end.

(** handle_primitive when encoding, json_binding.c:97-145 (the case of OP_RAW_BYTES is not reached: line 271) *)
Definition encode_value (op : N) (item : option json) : result reply :=
  match item with
  | None => Ok (match op with
                | 0x10 | 0x14 | 0x1A | 0x22 | 0x11 | 0x15 | 0x12 | 0x16 | 0x18 | 0x13 | 0x17 | 0x19 | 0x20 | 0x21 => store 0
                | _ => accept
                end)
  | Some j =>
    match op with
    | 0x10 | 0x14 => let! z := valueint j in Ok (store (ofZ 1 z))
    | 0x11 | 0x15 => let! z := valueint j in Ok (store (ofZ 2 z))
    | 0x12 | 0x16 => let! z := valueint j in Ok (store (ofZ 4 z))
    | 0x13 => let! z := f_to_int F64 0 (2 ^ 64 - 1) (valuedouble j) in Ok (store (ofZ 8 z))
    | 0x17 => let! z := f_to_int F64 (- 2 ^ 63) (2 ^ 63 - 1) (valuedouble j) in Ok (store (ofZ 8 z))
    | 0x18 => Ok (store (f_conv F64 F32 (valuedouble j)))
    | 0x19 => Ok (store (valuedouble j))
    | 0x20 | 0x21 => let! z := valueint j in Ok (store (ofZ 8 z))
    | 0x1A | 0x22 => Ok (store (match j with JBool true => 1 | _ => 0 end))
    | 0x30 | 0x31 | 0x32 | 0x33 => Ok (store_str (match j with JStr s => s | _ => [] end))
    | _ => Ok accept
    end
  end.

(** The integer behind [ptr]; the callback is not given another kind of pointer for these types *)
Definition int_of (p : payload) : N := match p with PInt _ v => v | _ => 0 end.
Definition pos_of (p : payload) : N := match p with PBuf q _ => q | _ => 0 end.
(** The C string at [p] of the packet buffer *)
Fixpoint c_string (l : list N) : result (list N) :=
  match l with
  | [] => Ub UData
  | b :: r => if b =? 0 then Ok [] else let! s := c_string r in Ok (b :: s)
  end.
(** malloc(len+1); memcpy(s, ptr, len); s[len]=0; cJSON_CreateString(s) with the length in front of [ptr] *)
Definition prefixed (b : list N) (p n : N) (len : list N -> N) : result json :=
  if p <? n then Ub UData
  else
    let! l := slice UData b (p - n) n in
    let! s := slice UData b p (len l) in
    Ok (JStr (cstr s)).
Definition le_comb (l : list N) : N := il_comb l 0.

(** json_binding.c:332-364: the value to add; [b] is the packet buffer and [e] ctx->endianness *)
Definition decode_value (b : list N) (e : endian) (op : N) (p : payload) : result (option json) :=
  let v := int_of p in
  match op with
  | 0x10 | 0x11 | 0x12 | 0x13 | 0x20 => Ok (Some (JNum (f_of_Z F64 (Z.of_N v))))
  | 0x14 => Ok (Some (JNum (f_of_Z F64 (toS 1 v))))
  | 0x15 => Ok (Some (JNum (f_of_Z F64 (toS 2 v))))
  | 0x16 => Ok (Some (JNum (f_of_Z F64 (toS 4 v))))
  | 0x17 | 0x21 => Ok (Some (JNum (f_of_Z F64 (toS 8 v))))
  | 0x18 => Ok (Some (JNum (f_conv F32 F64 v)))
  | 0x19 => Ok (Some (JNum v))
  | 0x1A | 0x22 => Ok (Some (JBool (negb (v =? 0))))
  | 0x30 => let! s := c_string (skipn (N.to_nat (pos_of p)) b) in Ok (Some (JStr s))
  | 0x31 => let! j := prefixed b (pos_of p) 1 le_comb in Ok (Some j)
  | 0x32 => let! j := prefixed b (pos_of p) 2 (fun l => match e with LE => le_comb l | BE => le_comb (rev l) end) in Ok (Some j)
  | 0x33 => let! j := prefixed b (pos_of p) 4 le_comb in Ok (Some j)
  | _ => Ok None
  end.

(** json_io_callback, json_binding.c:226-381.  stack[++depth] beyond the 32 slots is undefined. *)
Definition json_call (m : mode) (b : list N) (e : endian) (names : list (list N)) (io : ioctx) (rq : request) : result (ioctx * reply) :=
  let op := rq_op rq in
  let key := key_name names (rq_key rq) in
  let push io p := if 32 <=? lenN (io_stack io) then Ub UStack else Ok (with_stack io (p :: io_stack io), accept) in
  if op =? 0x03 then                                                        (* 240-263 *)
    match m, in_array io with
    | Enc, Some (p, i, _) =>
      match get_item (io_root io) p i with
      | Some c => push (next_item io) c
      | None => Ok (next_item io, reject)
      end
    | Enc, None =>
      match get_member (io_root io) (io_current io) key with
      | Some c => push io c
      | None => Ok (io, reject)
      end
    | Dec, Some (p, _, _) =>
      let root := add_at (io_root io) p [] (JObj []) in push (next_item (with_root io root)) (last_child root p)
    | Dec, None =>
      let root := add_at (io_root io) (io_current io) key (JObj []) in push (with_root io root) (last_child root (io_current io))
    end
  else if op =? 0x04 then                                                   (* 265-268 *)
    Ok (match io_stack io with _ :: (_ :: _) as r => with_stack io r | _ => io end, accept)
  else if is_array_op op then Ok (array_start m io op key)                  (* 271-273 *)
  else if op =? 0x38 then                                                   (* 275-289 *)
    Ok (with_arrays io (tl (io_arrays io)), accept)
  else if (op =? 0x06) || (op =? 0x60) then                                 (* 292-301 *)
    match get_member (io_root io) (io_current io) key with
    | None => Ok (io, reject)
    | Some p =>
      match at_path (io_root io) p with
      | Some (JBool t) => Ok (io, store (if t then 1 else 0))
      | Some j => let! z := f_to_int F64 0 (2 ^ 64 - 1) (valuedouble j) in Ok (io, store (ofZ 8 z))
      | None => Ok (io, reject)
      end
    end
  else if op =? 0x78 then                                                   (* 303-309 *)
    Ok (match m with
        | Dec => with_root io (add_at (io_root io) (io_current io) key (JNum (f_of_Z F64 (Z.of_N (int_of (rq_pl rq))))))
        | Enc => io
        end, accept)
  else                                                                      (* 311-380 *)
    match m with
    | Enc =>
      let (item, io) := match in_array io with
        | Some (p, i, _) => (get_item (io_root io) p i, next_item io)
        | None => (get_member (io_root io) (io_current io) key, io)
        end in
      let! r := encode_value op (match item with Some p => at_path (io_root io) p | None => None end) in
      Ok (io, r)
    | Dec =>
      let! v := decode_value b e op (rq_pl rq) in
      match v with
      | None => Ok (io, accept)
      | Some j =>
        Ok (match in_array io with
            | Some (p, _, _) => next_item (with_root io (add_at (io_root io) p [] j))
            | None => with_root io (add_at (io_root io) (io_current io) key j)
            end, accept)
      end
    end.

(** ** cnd_execute with a callback that looks into the interpreter's state *)

(** The callback is given the state in which the instruction started: of what it reads there (mode, byte order, packet bytes)
    no instruction changes anything before it calls back, except that an encoder writes an array's count before it offers the
    elements at once. *)
Section Looking.
  Context {H : Type} (host : st -> H -> request -> result (H * reply)).

  Fixpoint interp_at (s : st) (a : act) (h : H) : stepped * H :=
    match a with
    | Cont s' => (SCont s', h)
    | Halt e s' => (SHalt e s', h)
    | Undef u => (SUndef u, h)
    | Ask rq k => match host s h rq with
                  | Ok (h1, r) => interp_at s (k r) h1
                  | Ub u => (SUndef u, h)
                  end
    end.
  (** cnd_execute, vm_exec.c:671-1676 *)
  Fixpoint run_at (lm : libm) (bc : list N) (fuel : nat) (s : st) (h : H) : outcome * H :=
    match fuel with
    | O => (OutOfFuel, h)
    | S f =>
      if lenN bc <=? ip s then (Done EOk s, h)
      else match interp_at s (step lm bc s) h with
           | (SCont s', h1) => run_at lm bc f s' h1
           | (SHalt e s', h1) => (Done e s', h1)
           | (SUndef u, h1) => (Crash u, h1)
           end
    end.
End Looking.
Definition json_host (names : list (list N)) (s : st) (io : ioctx) (rq : request) : result (ioctx * reply) :=
  json_call (md s) (buf s) (en s) names io rq.
Definition start_io (root : json) : ioctx := {| io_root := root; io_stack := [[]]; io_arrays := [] |}.

(** ** The commands *)

Inductive command (A : Type) :=
| Exit0 (a : A)        (* returns 0 after writing the result *)
| Exit1                (* returns 1 *)
| Wrong (u : ubk)      (* undefined behaviour *)
| Unfinished.          (* the model ran out of fuel *)
Arguments Exit0 {A} a. Arguments Exit1 {A}. Arguments Wrong {A} u. Arguments Unfinished {A}.

(** The strings of the table, by the pointers collected *)
Fixpoint name_strings (img : list N) (ps : list N) : result (list (list N)) :=
  match ps with
  | [] => Ok []
  | p :: r => let! s := c_string (skipn (N.to_nat p) img) in let! l := name_strings img r in Ok (s :: l)
  end.
Definition with_il {A} (img : list N) (k : list N -> list (list N) -> command A) : command A :=
  match cli_load_il img with
  | Ub u => Wrong u
  | Ok None => Exit1
  | Ok (Some (off, len, ps)) =>
    match slice UIl img off len, name_strings img ps with
    | Ok bc, Ok names => k bc names
    | Ub u, _ => Wrong u
    | _, Ub u => Wrong u
    end
  end.

(** cmd_encode, cmd_encode.c:3-52: the bytes written to the output file *)
Definition cli_encode (lm : libm) (fuel : nat) (img : list N) (root : json) : command (list N) :=
  with_il img (fun bc names =>
    match run_at (json_host names) lm bc fuel (init Enc (repeat 0 1024)) (start_io root) with
    | (Done EOk s, _) =>
      let final_len := if 0 <? boff s then cur s + 1 else cur s in
      match slice UData (buf s) 0 final_len with Ok l => Exit0 l | Ub u => Wrong u end
    | (Done _ _, _) => Exit1
    | (Crash u, _) => Wrong u
    | (OutOfFuel, _) => Unfinished
    end).
(** cmd_decode, cmd_decode.c:3-59, without --hex: the JSON value that is printed *)
Definition cli_decode (lm : libm) (fuel : nat) (img bytes : list N) : command json :=
  with_il img (fun bc names =>
    match run_at (json_host names) lm bc fuel (init Dec bytes) (start_io (JObj [])) with
    | (Done EOk _, io) => Exit0 (io_root io)
    | (Done _ _, _) => Exit1
    | (Crash u, _) => Wrong u
    | (OutOfFuel, _) => Unfinished
    end).
