(** Texts that keep the compiler clear of undefined behaviour. *)
From Coq Require Import Strings.String.
From Verif Require Import Base ModelText SpecText ModelParse.

(** A hexadecimal number, possibly behind a sign *)
Definition hex_start (s : list N) : Prop :=
  exists sign r, In sign [[]; [43]; [45]] /\ (s = sign ++ 48 :: 120 :: r \/ s = sign ++ 48 :: 88 :: r).
(** How many decimal digits there are in a text *)
Definition decimals (s : list N) : N := lenN (filter (fun c => (48 <=? c) && (c <=? 57)) s).
(** At most [d] decimal digits, and at most [h] characters if hexadecimal *)
Definition digits_upto (d h : N) (s : list N) : Prop := decimals s <= d /\ (hex_start s -> lenN s <= h).

(** What holds of the tokens of every file there is to read *)
Definition every_file (E : env) (P : list token -> Prop) : Prop :=
  forall path src toks, e_read E path = Some src -> lex src = Some toks -> P toks.
Definition no_keyword (kw : string) (toks : list token) : Prop := Forall (fun t => tk t = TIdentifier -> ttext t <> chars kw) toks.
Definition no_kind (k : kind) (toks : list token) : Prop := Forall (fun t => tk t <> k) toks.

(** Numbers of at most 18 digits (hexadecimal: 17 characters), and fewer than 2^60 tokens *)
Definition modest (toks : list token) : Prop := Forall (fun t => digits_upto 18 17 (ttext t)) toks /\ lenN toks < 2 ^ 60.
(** Numbers of at most 4 digits (hexadecimal: 6 characters), and at most 30000 tokens *)
Definition slight (toks : list token) : Prop := Forall (fun t => digits_upto 4 6 (ttext t)) toks /\ lenN toks <= 30000.
