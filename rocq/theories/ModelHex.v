(** decode --hex: the parts of json_binding.c that collect byte arrays in hexadecimal, on top of [ModelJson].

    A byte array is entered into the document as a string (json_binding.c:76) to which the elements that are not collected are
    attached as children (369, 258), where the printer does not look for them. Here it is an array with these children, remembered
    in [x_strings] with its text, and replaced by the text at the end. *)
From Verif Require Import Base ModelWord ModelFloat ModelTrans ModelVM ModelImage ModelJson.

(** IOCtx, cli_helpers.h:44-48: in_hex_byte_array and hex_str_buffer (None when it is NULL), with the strings entered *)
Record hexctx := { x_io : ioctx; x_in : bool; x_text : option (list N); x_strings : list (path * list N) }.
Definition with_io (x : hexctx) (io : ioctx) : hexctx := {| x_io := io; x_in := x_in x; x_text := x_text x; x_strings := x_strings x |}.

(** sprintf("%02X"), json_binding.c:21 *)
Definition hex_digit (n : N) : N := if n <? 10 then 48 + n else 55 + n.
Definition hex_byte (b : N) : list N := [hex_digit (b / 16); hex_digit (b mod 16)].
(** append_hex_byte, json_binding.c:14-23 *)
Definition append_hex (x : hexctx) (b : N) : hexctx :=
  {| x_io := x_io x; x_in := x_in x; x_text := Some (match x_text x with Some t => t | None => [] end ++ hex_byte b); x_strings := x_strings x |}.

(** ctx->ip when the opening of an array is announced: behind the operands of the instruction at [i] (vm_exec.c:361-374, 1117-1130,
    1166-1178). When the bytecode ends among the operands the place is another one, but nothing is read there either way. *)
Definition announced_ip (op i : N) : N := if op =? 0x34 then i + 7 else if op =? 0x3B then i + 5 else i + 3.
(** json_binding.c:28-43: the byte looked at lies behind the place where [ctx->ip] would be had the operands not been read *)
Definition hex_array (bc : list N) (i op : N) : bool :=
  if op =? 0x39 then true
  else
    let p := announced_ip op i in
    if p <? lenN bc then
      let q := if op =? 0x34 then p + 6 else p + 2 in
      (q <? lenN bc) && (nth (N.to_nat q) bc 0 =? 0x10)
    else false.

Definition same_path (p q : path) : bool := if list_eq_dec Nat.eq_dec p q then true else false.
(** cJSON_SetValuestring: of items that are strings only *)
Definition set_string (p : path) (t : list N) (l : list (path * list N)) : list (path * list N) :=
  map (fun e => if same_path (fst e) p then (fst e, t) else e) l.

(** json_io_callback with hex_mode, json_binding.c:226-381 *)
Definition hex_call (bc : list N) (names : list (list N)) (s : st) (x : hexctx) (rq : request) : result (hexctx * reply) :=
  let op := rq_op rq in
  let plain := let! r := json_host names s (x_io x) rq in Ok (with_io x (fst r), snd r) in
  match md s with
  | Enc => plain
  | Dec =>
    if is_array_op op then                                                   (* 25-94 *)
      if (lenN (io_arrays (x_io x)) <? 31) && hex_array bc (ip s) op then
        let! r := json_host names s (x_io x) rq in
        let io := fst r in
        let p := match io_arrays io with (p, _, _) :: _ => p | [] => [] end in
        Ok ({| x_io := io; x_in := true; x_text := None; x_strings := (p, []) :: x_strings x |}, snd r)
      else plain
    else if op =? 0x38 then                                                  (* 275-289 *)
      if x_in x then
        match io_arrays (x_io x) with
        | [] => Ub UStack
        | (p, _, _) :: _ =>
          let! r := json_host names s (x_io x) rq in
          Ok ({| x_io := fst r; x_in := false; x_text := None;
                 x_strings := match x_text x with Some t => set_string p t (x_strings x) | None => x_strings x end |}, snd r)
        end
      else plain
    else if x_in x && (op =? 0x10) then Ok (append_hex x (int_of (rq_pl rq)), accept)   (* 324-328 *)
    else plain
  end.

(** The item at [p] replaced *)
Fixpoint put_at (j : json) (p : path) (v : json) : json :=
  match p with
  | [] => v
  | i :: q => match j with
              | JArr l => JArr (change i (fun c => put_at c q v) l)
              | JObj l => JObj (change i (fun m => (fst m, put_at (snd m) q v)) l)
              | _ => j
              end
  end.
(** The document as it is printed: strings entered last first, so that those inside others are gone with them *)
Definition shown_doc (j : json) (l : list (path * list N)) : json := fold_left (fun j e => put_at j (fst e) (JStr (snd e))) l j.
Definition hex_doc (x : hexctx) : json := shown_doc (io_root (x_io x)) (x_strings x).

Definition start_hex : hexctx := {| x_io := start_io (JObj []); x_in := false; x_text := None; x_strings := [] |}.
(** cmd_decode, cmd_decode.c:3-59, with --hex *)
Definition cli_decode_hex (lm : libm) (fuel : nat) (img bytes : list N) : command json :=
  with_il img (fun bc names =>
    match run_at (hex_call bc names) lm bc fuel (init Dec bytes) start_hex with
    | (Done EOk _, x) => Exit0 (hex_doc x)
    | (Done _ _, _) => Exit1
    | (Crash u, _) => Wrong u
    | (OutOfFuel, _) => Unfinished
    end).
