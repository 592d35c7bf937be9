(** Texts for which formatting keeps the program, declaratively. *)
From Verif Require Import Base ModelText SpecText.

(** Kind and text of the tokens of a source *)
Definition code (ts : list token) : list (kind * list N) := map (fun t => (tk t, ttext t)) ts.

(** Where a position of the text stands: in the program, in a string, in a line comment, in a block comment *)
Inductive place : Type := Code | Quoted | Line | Block.

(** Every string literal is closed; line comments contain no carriage return except at their end; block comments contain
    neither a double quote nor two slashes in a row (nor is the end of one followed by a slash). *)
Fixpoint tidy (p : place) (l : list N) : bool :=
  match l with
  | [] => match p with Quoted => false | _ => true end
  | c :: r =>
    match p with
    | Code =>
      if c =? 34 then tidy Quoted r
      else if c =? 47 then
        match r with
        | 47 :: r => tidy Line r
        | 42 :: r => tidy Block r
        | _ => tidy Code r
        end
      else tidy Code r
    | Quoted => if c =? 34 then tidy Code r else tidy Quoted r
    | Line =>
      if c =? 10 then tidy Code r
      else if c =? 13 then match r with [] => true | d :: _ => (d =? 10) && tidy Line r end
      else tidy Line r
    | Block =>
      if c =? 34 then false
      else if c =? 47 then negb (next_char r =? 47) && tidy Block r
      else if c =? 42 then
        match r with
        | 47 :: r => negb (next_char r =? 47) && tidy Code r
        | _ => tidy Block r
        end
      else tidy Block r
    end
  end.

(** Every string literal is closed, in the eyes of the formatter (which knows strings and line comments only) *)
Fixpoint closed (p : place) (l : list N) : bool :=
  match l with
  | [] => match p with Quoted => false | _ => true end
  | c :: r =>
    match p with
    | Quoted => if c =? 34 then closed Code r else closed Quoted r
    | Line => if c =? 10 then closed Code r else closed Line r
    | _ =>
      if c =? 34 then closed Quoted r
      else if (c =? 47) && (next_char r =? 47) then closed Line r
      else closed Code r
    end
  end.
