(** The command line tool with its files: src/cli/main.c, cmd_compile.c, cmd_fmt.c, cmd_inspect.c, cmd_encode.c, cmd_decode.c, the file functions of
    cli_helpers.c, cnd_format_file (src/compiler/cnd_fmt.c) and the file part of cnd_compile_file (src/compiler/cndc.c).
    Not modelled: messages, the lsp command, writes that fail after the file is opened, memory exhaustion. *)
From Coq Require Import Strings.String.
From Verif Require Import Base ModelFloat ModelVM ModelImage ModelText ModelFmt ModelNames ModelParse ModelSchema ModelJson ModelHex ModelInspect.

(** What the tool runs on.  [s_place] says which file a path names (two paths may name one file), whether it exists or not;
    [s_readable] and [s_writable] whether fopen succeeds on it (reading needs the file to exist as well); [s_canon] is realpath or the
    path itself (cnd_canonicalize_path, cnd_utils.c:3-28); [s_empty]: malloc(0) is not NULL; [s_parse] and [s_print] are cJSON_Parse
    and cJSON_Print; [s_strtod], [s_libm] the C library. *)
Record system := {
  s_place : list N -> N; s_readable : list N -> bool; s_writable : list N -> bool; s_canon : list N -> list N; s_empty : bool;
  s_parse : list N -> option json; s_print : json -> list N; s_strtod : list N -> N; s_libm : libm }.

(** The contents of the files *)
Definition files := N -> option (list N).
Definition put (fs : files) (i : N) (l : list N) : files := fun j => if j =? i then Some l else fs j.

(** fopen(path, "rb") and the whole contents *)
Definition contents (S : system) (fs : files) (path : list N) : option (list N) := if s_readable S path then fs (s_place S path) else None.
(** read_file_bytes, cli_helpers.c:11-22 *)
Definition read_bytes (S : system) (fs : files) (path : list N) : option (list N) :=
  match contents S fs path with
  | Some [] => if s_empty S then Some [] else None
  | o => o
  end.
(** read_file_text, cli_helpers.c:24-37, and the same steps in cnd_compile_file (cndc.c:264-273) and cnd_format_file (cnd_fmt.c:218-231): what the C
    string functions see of the buffer *)
Definition read_text (S : system) (fs : files) (path : list N) : option (list N) := option_map cstr (contents S fs path).
(** write_file_bytes, cli_helpers.c:39-45: None, if the file cannot be opened *)
Definition write_bytes (S : system) (fs : files) (path l : list N) : option files :=
  if s_writable S path then Some (put fs (s_place S path) l) else None.
(** write_file_text, cli_helpers.c:47-53 (fputs; no translation of line ends) *)
Definition write_text (S : system) (fs : files) (path l : list N) : option files := write_bytes S fs path (cstr l).

(** How a command ends: exit code, files and what fmt prints; undefined behaviour; the model's fuel is used up; a command that is not modelled *)
Inductive ended := Exits (code : N) (fs : files) (printed : list N) | Undefined (u : ubk) | Unended | Unmodelled.

(** cmd_compile.c:6-25 and cnd_compile_file, cndc.c:258-335 *)
Definition env_of (S : system) (fs : files) : env :=
  {| e_strtod := s_strtod S; e_read := read_text S fs; e_canon := s_canon S |}.
Definition cmd_compile (S : system) (fuel : nat) (fs : files) (args : list (list N)) : ended :=
  match args with
  | src :: out :: _ =>
    match compile_file (env_of S fs) fuel src with
    | CImage img => match write_bytes S fs out img with Some fs' => Exits 0 fs' [] | None => Exits 1 fs [] end
    | CRefused => Exits 1 fs []
    | CUndef u => Undefined u
    | CFuel => Unended
    end
  | _ => Exits 1 fs []
  end.

(** cmd_fmt.c:5-15 and cnd_format_file, cnd_fmt.c:217-253 *)
Definition cmd_fmt (S : system) (fs : files) (args : list (list N)) : ended :=
  match args with
  | [] => Exits 1 fs []
  | src :: outs =>
    match read_text S fs src with
    | None => Exits 1 fs []
    | Some text =>
      match format_source text with
      | None => Unended
      | Some o =>
        match outs with
        | [] => Exits 0 fs (cstr o)
        | out :: _ => match write_text S fs out o with Some fs' => Exits 0 fs' [] | None => Exits 1 fs [] end
        end
      end
    end
  end.

(** cmd_inspect.c:144-171, 455-456; what it shows is in ModelInspect.  How it ends does not depend on the order of evaluation there. *)
Definition cmd_inspect (S : system) (fs : files) (args : list (list N)) : ended :=
  match args with
  | [] => Exits 1 fs []
  | il :: _ =>
    match contents S fs il with
    | None => Exits 1 fs []
    | Some data =>
      match inspect false data with
      | Ok NoImage => Exits 1 fs []
      | Ok Endless => Unended
      | Ok (Inspection _ _ _ _ _ _) => Exits 0 fs []
      | Ub u => Undefined u
      end
    end
  end.

(** The schema is loaded before the input is read *)
Definition loaded (img : list N) : command unit := with_il img (fun _ _ => Exit0 tt).

(** cmd_encode.c:3-52; the result of write_file_bytes is not looked at *)
Definition cmd_encode (S : system) (fuel : nat) (fs : files) (args : list (list N)) : ended :=
  match args with
  | il :: doc :: out :: _ =>
    match read_bytes S fs il with
    | None => Exits 1 fs []
    | Some img =>
      match loaded img with
      | Exit1 => Exits 1 fs []
      | Wrong u => Undefined u
      | Unfinished => Unended
      | Exit0 _ =>
        match read_text S fs doc with
        | None => Exits 1 fs []
        | Some text =>
          match s_parse S text with
          | None => Exits 1 fs []
          | Some root =>
            match cli_encode (s_libm S) fuel img root with
            | Exit0 l => Exits 0 (match write_bytes S fs out l with Some fs' => fs' | None => fs end) []
            | Exit1 => Exits 1 fs []
            | Wrong u => Undefined u
            | Unfinished => Unended
            end
          end
        end
      end
    end
  | _ => Exits 1 fs []
  end.

(** cmd_decode.c:3-59; the result of write_file_text is not looked at *)
Definition cmd_decode (S : system) (fuel : nat) (fs : files) (args : list (list N)) : ended :=
  match args with
  | il :: bin :: out :: opts =>
    let decode := if match opts with o :: _ => same_text o (chars "--hex") | [] => false end then cli_decode_hex else cli_decode in
    match read_bytes S fs il with
    | None => Exits 1 fs []
    | Some img =>
      match loaded img with
      | Exit1 => Exits 1 fs []
      | Wrong u => Undefined u
      | Unfinished => Unended
      | Exit0 _ =>
        match read_bytes S fs bin with
        | None => Exits 1 fs []
        | Some bytes =>
          match decode (s_libm S) fuel img bytes with
          | Exit0 root => Exits 0 (match write_text S fs out (s_print S root) with Some fs' => fs' | None => fs end) []
          | Exit1 => Exits 1 fs []
          | Wrong u => Undefined u
          | Unfinished => Unended
          end
        end
      end
    end
  | _ => Exits 1 fs []
  end.

(** main, main.c:21-64, after the name of the program *)
Definition main (S : system) (fuel : nat) (fs : files) (argv : list (list N)) : ended :=
  match argv with
  | [] => Exits 1 fs []
  | c :: args =>
    let is (w : String.string) := same_text c (chars w) in
    if is "compile"%string then cmd_compile S fuel fs args
    else if is "fmt"%string then cmd_fmt S fs args
    else if is "inspect"%string then cmd_inspect S fs args
    else if is "encode"%string then cmd_encode S fuel fs args
    else if is "decode"%string then cmd_decode S fuel fs args
    else if is "lsp"%string then Unmodelled
    else if is "help"%string || is "-h"%string || is "--help"%string then Exits 0 fs []
    else if is "version"%string || is "-v"%string || is "--version"%string then Exits 0 fs []
    else Exits 1 fs []
  end.

(** One command after another, each with the files the last one left *)
Fixpoint session (S : system) (fuel : nat) (fs : files) (cmds : list (list (list N))) : list N * ended :=
  match cmds with
  | [] => ([], Exits 0 fs [])
  | c :: r =>
    match main S fuel fs c with
    | Exits code fs' _ => let (codes, e) := session S fuel fs' r in (code :: codes, e)
    | e => ([], e)
    end
  end.
