(** The Go package: go/concordia.go (go/bridge.c compiles the interpreter itself into the package).

    Simplifications: memory allocation does not fail; a program is its data and the result of the loader; Go's int has 64 bits.
    What a callback of the user does is a function of what it is given; a panic of [String] inside a callback is taken to be
    recovered there. *)
From Verif Require Import Base ModelWord ModelFloat ModelTrans ModelVM ModelImage ModelJson.

(** Program, concordia.go:116-119: None after Close (159-169) *)
Record go_program := { g_mem : list N; g_prog : program; g_names : bool }.

Inductive go_loaded := GoLoaded (p : go_program) | GoEmpty | GoLoadErr (e : err).
(** LoadProgram, concordia.go:122-156 *)
Definition go_load (data : list N) : result go_loaded :=
  match data with
  | [] => Ok GoEmpty
  | _ =>
    let! il := if 16 <=? lenN data then magic_ok data else Ok false in
    if il then
      let! r := load_il data in
      Ok (match r with Loaded p => GoLoaded {| g_mem := data; g_prog := p; g_names := true |} | LoadErr e => GoLoadErr e end)
    else
      Ok (GoLoaded {| g_mem := data; g_names := false;
                      g_prog := {| pr_bytecode := 0; pr_bytecode_len := lenN data; pr_string_table := 0; pr_string_count := 0 |} |})
  end.
Definition go_bytecode (p : go_program) : list N :=
  firstn (N.to_nat (pr_bytecode_len (g_prog p))) (skipn (N.to_nat (pr_bytecode (g_prog p))) (g_mem p)).

(** GetKeyName and GetKeyID, concordia.go:172-190; C.GoString copies up to the NUL; C.CString appends one *)
Definition go_key_name (p : option go_program) (id : N) : result (list N) :=
  match p with
  | None => Ok []
  | Some p =>
    if g_names p then
      let! q := get_key_name (g_mem p) (g_prog p) id in
      match q with None => Ok [] | Some q => c_string (skipn (N.to_nat q) (g_mem p)) end
    else Ok []
  end.
Definition go_key_id (p : option go_program) (name : list N) : result N :=
  match p with
  | None => Ok 0xFFFF
  | Some p => if g_names p then get_key_id (g_mem p) (g_prog p) (cstr name) else Ok 0xFFFF
  end.

(** Value, concordia.go:93-97, with the memory its pointer may point into and what its context holds (77-81, 286-287) *)
Record value := { v_pl : payload; v_op : N; v_en : endian; v_mem : list N }.

(** Reading and writing [n] bytes through the pointer, concordia.go:345-428; outside the variable of the interpreter it is undefined.
    The machine is little endian. *)
Definition v_load (n : N) (v : value) : result N :=
  match v_pl v with
  | PInt w x => if n <=? wbytes w then Ok (x mod 2 ^ (8 * n)) else Ub UStack
  | PBuf p _ => let! l := slice UData (v_mem v) p n in Ok (il_comb l 0)
  | _ => Ub UStack
  end.
Definition v_store (n x : N) (v : value) : result reply :=
  match v_pl v with
  | PInt w old => if n <=? wbytes w then
                    Ok {| r_ok := true; r_val := Some (x mod 2 ^ (8 * n) + old mod 2 ^ (8 * wbytes w) / 2 ^ (8 * n) * 2 ^ (8 * n)); r_str := None; r_bytes := [] |}
                  else Ub UStack
  | _ => Ub UStack
  end.
(** SetString, concordia.go:339-343 *)
Definition v_set_string (l : list N) (v : value) : result reply :=
  match v_pl v with
  | PStr => Ok {| r_ok := true; r_val := None; r_str := Some l; r_bytes := [] |}
  | _ => Ub UStack
  end.

(** The length in front of the pointer and C.GoStringN, which panics on a negative length *)
Definition counted (n : N) (len : list N -> N) (v : value) : result (option (list N)) :=
  match v_pl v with
  | PBuf p _ =>
    if p <? n then Ub UData
    else
      let! l := slice UData (v_mem v) (p - n) n in
      if (toS 4 (trunc 4 (len l)) <? 0)%Z then Ok None
      else let! s := slice UData (v_mem v) p (trunc 4 (len l)) in Ok (Some s)
  | _ => Ub UStack
  end.
(** String, concordia.go:299-337 *)
Definition v_string (v : value) : result (option (list N)) :=
  let order l := match v_en v with LE => il_comb l 0 | BE => il_comb (rev l) 0 end in
  match v_op v with
  | 0x30 => match v_pl v with
            | PBuf p _ => let! s := c_string (skipn (N.to_nat p) (v_mem v)) in Ok (Some s)
            | _ => Ub UStack
            end
  | 0x31 => counted 1 (fun l => il_comb l 0) v
  | 0x32 => counted 2 order v
  | 0x33 => counted 4 order v
  | _ => Ok (Some [])
  end.

(** CallbackFunc, concordia.go:106, and go_io_callback_gateway, 272-296: an error of the callback is CND_ERR_CALLBACK *)
Section Execute.
  Context {H : Type} (cb : H -> mode -> N -> N -> value -> result (H * reply)).
  Definition gateway (s : st) (h : H) (rq : request) : result (H * reply) :=
    cb h (md s) (rq_key rq) (rq_op rq) {| v_pl := rq_pl rq; v_op := rq_op rq; v_en := en s; v_mem := buf s |}.

  Inductive go_ended :=
  | Returned (e : option err) (data : list N) (h : H)   (* parseError, concordia.go:54-73: None is nil *)
  | Panicked                                            (* C.GoBytes of a negative length *)
  | Undefined (u : ubk)
  | Unfinished_.
  (** Execute, concordia.go:193-250: data_buffer is NULL for an empty slice, the program is NULL after Close; vm_exec.c:672 *)
  Definition go_execute (lm : libm) (fuel : nat) (p : option go_program) (data : list N) (m : mode) (h : H) : go_ended :=
    match p, data with
    | None, _ | _, [] => Returned (Some EOob) data h
    | Some p, _ =>
      match run_at gateway lm (go_bytecode p) fuel (init m data) h with
      | (Done e s, h') =>
        let n := toS 4 (trunc 4 (lenN data)) in
        if (n <? 0)%Z then Panicked
        else Returned (match e with EOk => None | _ => Some e end) (firstn (Z.to_nat n) (buf s) ++ skipn (Z.to_nat n) data) h'
      | (Crash u, _) => Undefined u
      | (OutOfFuel, _) => Unfinished_
      end
    end.
End Execute.
Arguments Returned {H}. Arguments Panicked {H}. Arguments Undefined {H}. Arguments Unfinished_ {H}.
