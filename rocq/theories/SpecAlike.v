(** Two sets of source files that say the same, declaratively. *)
From Verif Require Import Base ModelText SpecText ModelFmt SpecFmt ModelParse.

(** Two texts with the same tokens: kind by kind, text by text; white space, comments and positions may differ *)
Definition same_words (s s' : list N) : Prop :=
  exists ts ts', lex s = Some ts /\ lex s' = Some ts' /\ code ts = code ts'.

(** Two environments of the compiler that agree on numbers and on canonical paths, and whose files say the same *)
Definition same_sources (E E' : env) : Prop :=
  (forall s, e_strtod E s = e_strtod E' s) /\ (forall p, e_canon E p = e_canon E' p) /\
  (forall p, match e_read E p, e_read E' p with
             | None, None => True
             | Some s, Some s' => same_words s s'
             | _, _ => False
             end).

(** The files after the formatter has been run over the chosen ones of them *)
Definition formatted (which : list N -> bool) (E : env) : env :=
  {| e_strtod := e_strtod E; e_canon := e_canon E;
     e_read := fun p => match e_read E p with
                        | Some s => if which p then format_source s else Some s
                        | None => None
                        end |}.
