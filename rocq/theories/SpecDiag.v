(** Positions in a text, and the definitions in it. *)
From Coq Require Import ZArith.
From Verif Require Import Base ModelText SpecText.

(** Line and character, both from 0, of what comes after [l] *)
Fixpoint position (l : list N) (line character : Z) : Z * Z :=
  match l with
  | [] => (line, character)
  | c :: r => if N.eqb c 10 then position r (line + 1)%Z 0%Z else position r line (character + 1)%Z
  end.
(** Where the token starts *)
Definition start_of (text : list N) (t : token) : Z * Z := position (firstn (N.to_nat (tpos t)) text) 0 0.
(** No string literal spans lines, and every carriage return stands before a newline *)
Definition plain (text : list N) : Prop :=
  (forall ts t, lex text = Some ts -> In t ts -> tk t = TString -> ~ In 10 (ttext t)) /\
  (forall a b, text = a ++ 13 :: b -> next_char b = 10).
(** [defines text k name line]: on this line of the text, [name] is the first legal token after a keyword of kind [k] *)
Definition defines (text : list N) (k : kind) (name : list N) (line : Z) : Prop := exists ts a kw b t c,
  tokens_of 0 text ts /\ ts = a ++ kw :: b ++ t :: c /\ tk kw = k /\ Forall (fun x => tk x = TError) b /\
  ttext t = name /\ fst (start_of text t) = line.
