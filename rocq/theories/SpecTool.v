(** What the commands of the tool are for, declaratively. *)
From Coq Require Import Strings.String.
From Verif Require Import Base ModelVM ModelText ModelFmt ModelParse ModelSchema ModelJson ModelHex ModelTool.

(** A command line: the command's name and its arguments *)
Definition cmd (name : String.string) (args : list (list N)) : list (list N) := chars name :: args.

(** The argument that names the output file *)
Inductive output : list (list N) -> list N -> Prop :=
| Out_compile src out r : output (cmd "compile" (src :: out :: r)) out
| Out_fmt src out r : output (cmd "fmt" (src :: out :: r)) out
| Out_encode il doc out r : output (cmd "encode" (il :: doc :: out :: r)) out
| Out_decode il bin out r : output (cmd "decode" (il :: bin :: out :: r)) out.

(** What the output file is to hold: the image of the schema; the formatted text; the message for the document; the text of the
    document for the message, with byte arrays in hexadecimal on demand *)
Inductive asked_for (S : system) (fs : files) : list (list N) -> list N -> Prop :=
| Ask_compile src out r img : (exists fuel, compile_file (env_of S fs) fuel src = CImage img) ->
    asked_for S fs (cmd "compile" (src :: out :: r)) img
| Ask_fmt src out r text o : contents S fs src = Some text -> format_source (cstr text) = Some o -> asked_for S fs (cmd "fmt" (src :: out :: r)) (cstr o)
| Ask_encode il doc out r img text d l : contents S fs il = Some img -> contents S fs doc = Some text -> s_parse S (cstr text) = Some d ->
    (exists fuel, cli_encode (s_libm S) fuel img d = Exit0 l) -> asked_for S fs (cmd "encode" (il :: doc :: out :: r)) l
| Ask_decode il bin out r img bytes d : contents S fs il = Some img -> contents S fs bin = Some bytes -> (forall o, hd_error r = Some o -> o <> chars "--hex") ->
    (exists fuel, cli_decode (s_libm S) fuel img bytes = Exit0 d) -> asked_for S fs (cmd "decode" (il :: bin :: out :: r)) (cstr (s_print S d))
| Ask_hex il bin out r img bytes d : contents S fs il = Some img -> contents S fs bin = Some bytes ->
    (exists fuel, cli_decode_hex (s_libm S) fuel img bytes = Exit0 d) -> asked_for S fs (cmd "decode" (il :: bin :: out :: chars "--hex" :: r)) (cstr (s_print S d)).
