(** A callback as its author thinks of it, what it amounts to for the interpreter, and how it is written with the Go package. *)
From Verif Require Import Base ModelWord ModelFloat ModelTrans ModelVM ModelImage ModelJson ModelGo SpecHost.

(** What the author sees: a number (as the bits of its type), a text, a text to supply, bytes of an array offered at once, nothing *)
Inductive seen := Number (x : N) | Words (l : list N) | Wanted | Raw | Bare.
Inductive answer := Refuse | Accept | Store (x : N) | Give (l : list N).
Definition no : reply := {| r_ok := false; r_val := None; r_str := None; r_bytes := [] |}.
Definition yes : reply := {| r_ok := true; r_val := None; r_str := None; r_bytes := [] |}.

Section Author.
  (** The author's part: its data, the direction, the key and the type, what is seen *)
  Context {H : Type} (u : H -> mode -> N -> N -> seen -> H * answer).

  (** For the interpreter, by the payload of the call *)
  Definition seen_in (rq : request) : seen :=
    match rq_pl rq with
    | PInt w v => Number (v mod 2 ^ (8 * wbytes w))
    | PStr => Wanted
    | PBuf _ l => if rq_op rq =? 0x39 then Raw else Words l
    | PNone => Bare
    end.
  Definition plain_host (m : mode) (h : H) (rq : request) : H * reply :=
    let '(h1, a) := u h m (rq_key rq) (rq_op rq) (seen_in rq) in
    (h1, match a, rq_pl rq with
         | Refuse, _ => no
         | Store x, PInt w _ => {| r_ok := true; r_val := Some (x mod 2 ^ (8 * wbytes w)); r_str := None; r_bytes := [] |}
         | Give l, PStr => {| r_ok := true; r_val := None; r_str := Some l; r_bytes := [] |}
         | _, _ => yes
         end).

  (** In Go, by the type alone: Uint8 .. Uint64 and SetUint8 .. SetUint64 (or the signed or floating ones of the same size), String
      when decoding and SetString when encoding *)
  Definition go_callback (h : H) (m : mode) (key op : N) (v : value) : result (H * reply) :=
    match number_size op with
    | Some n =>
      let! x := v_load n v in
      let '(h1, a) := u h m key op (Number x) in
      let! r := match a with Refuse => Ok no | Store y => v_store n y v | _ => Ok yes end in
      Ok (h1, r)
    | None =>
      if text_type op then
        match m with
        | Enc =>
          let '(h1, a) := u h m key op Wanted in
          let! r := match a with Refuse => Ok no | Give l => v_set_string l v | _ => Ok yes end in
          Ok (h1, r)
        | Dec =>
          let! o := v_string v in
          match o with
          | Some l => let '(h1, a) := u h m key op (Words l) in Ok (h1, match a with Refuse => no | _ => yes end)
          | None => Ub UStack
          end
        end
      else
        let '(h1, a) := u h m key op (if op =? 0x39 then Raw else Bare) in Ok (h1, match a with Refuse => no | _ => yes end)
    end.
End Author.

(** A string ended by a NUL is shorter than the greatest length allowed *)
Definition closed (rq : request) : Prop :=
  match rq_how rq, rq_pl rq with HString 0x30 max, PBuf _ l => lenN l < max | _, _ => True end.
(** What Execute returns when the interpreter ends so *)
Definition go_result {H} (o : outcome) (h : H) : go_ended :=
  match o with
  | Done e s => Returned (match e with EOk => None | _ => Some e end) (buf s) h
  | Crash k => Undefined k
  | OutOfFuel => Unfinished_
  end.
