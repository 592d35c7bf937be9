(** Compiled images: src/compiler/cndc.c (writer), src/vm/vm_exec.c (loader, key lookups) and
    src/cli/cli_helpers.c (loader of the command line tool). *)
From Verif Require Import Base ModelWord ModelVM.

(** fwrite of an integer variable (cndc.c:305, 312): little-endian host *)
Definition le2 (v : N) : list N := [v mod 256; v / 256 mod 256].
Definition le4 (v : N) : list N := [v mod 256; v / 256 mod 256; v / 65536 mod 256; v / 16777216 mod 256].

(** cndc.c:303-317.  The strings of the table are NUL-terminated arrays; strlen stops at the first NUL.
    "CNDIL" = 67 78 68 73 76.  str_bytes and the offsets are uint32_t. *)
Definition image (strs : list (list N)) (bc : list N) : list N :=
  let str_count := lenN strs mod 2 ^ 16 in
  let str_offset := 16 in
  let str_bytes := fold_left (fun a s => (a + (lenN (cstr s) + 1)) mod 2 ^ 32) strs 0 in
  let bytecode_offset := (str_offset + str_bytes) mod 2 ^ 32 in
  [67; 78; 68; 73; 76] ++ [1] ++ le2 str_count ++ le4 str_offset ++ le4 bytecode_offset
  ++ flat_map (fun s => cstr s ++ [0]) strs ++ bc.

(** A loaded program: pointers are positions in the image (concordia.h:203-209) *)
Record program := { pr_bytecode : N; pr_bytecode_len : N; pr_string_table : N; pr_string_count : N }.

Inductive loaded := Loaded (p : program) | LoadErr (e : err).

(** Two and four image bytes combined little endian (vm_exec.c:556-558) *)
Definition img_u16 (img : list N) (p : N) : result N :=
  let! l := slice UIl img p 2 in Ok (il_comb l 0).
Definition img_u32 (img : list N) (p : N) : result N :=
  let! l := slice UIl img p 4 in Ok (il_comb l 0).

(** memcmp of the image start with "CNDIL" (vm_exec.c:553) *)
Definition magic_ok (img : list N) : result bool :=
  let! l := slice UIl img 0 5 in
  Ok (if list_eq_dec N.eq_dec l [67; 78; 68; 73; 76] then true else false).

(** cnd_program_load_il, vm_exec.c:548-568 (the null checks of line 549 are not modelled) *)
Definition load_il (img : list N) : result loaded :=
  if lenN img <? 16 then Ok (LoadErr EOob)
  else
    let! m := magic_ok img in
    if negb m then Ok (LoadErr EInvalidOp)
    else
      let! v := mem UIl img 5 in
      if negb (v =? 1) then Ok (LoadErr EInvalidOp)
      else
        let! str_count := img_u16 img 6 in
        let! str_offset := img_u32 img 8 in
        let! bc_offset := img_u32 img 12 in
        if (lenN img <? str_offset) || (lenN img <? bc_offset) then Ok (LoadErr EOob)
        else Ok (Loaded {| pr_bytecode := bc_offset; pr_bytecode_len := lenN img - bc_offset;
                           pr_string_table := str_offset; pr_string_count := str_count |}).

(** [while ( *ptr) ptr++; ptr++;] with [l] the rest of the image from [p] (vm_exec.c:575-576, 587-588) *)
Fixpoint skip_string (l : list N) (p : N) : result N :=
  match l with
  | [] => Ub UIl
  | b :: r => if b =? 0 then Ok (p + 1) else skip_string r (p + 1)
  end.
Definition next_string (img : list N) (p : N) : result N := skip_string (skipn (N.to_nat p) img) p.

(** vm_exec.c:573-577, [n] strings left to skip *)
Fixpoint skip_strings (img : list N) (p : N) (n : nat) : result N :=
  match n with
  | O => Ok p
  | S n' => let! p := next_string img p in skip_strings img p n'
  end.
(** cnd_get_key_name, vm_exec.c:570-579: a pointer into the image or NULL *)
Definition get_key_name (img : list N) (pr : program) (key_id : N) : result (option N) :=
  if pr_string_count pr <=? key_id then Ok None
  else let! p := skip_strings img (pr_string_table pr) (N.to_nat key_id) in Ok (Some p).

(** strcmp(ptr, name) == 0 with [l] the rest of the image and [name] the C string without its NUL *)
Fixpoint same_string (l name : list N) : result bool :=
  match l with
  | [] => Ub UIl
  | b :: r => match name with
              | [] => Ok (b =? 0)
              | c :: n => if b =? c then same_string r n else Ok false
              end
  end.
(** vm_exec.c:585-589, [n] strings left, [i] is the next one *)
Fixpoint find_string (img : list N) (p : N) (name : list N) (i : N) (n : nat) : result N :=
  match n with
  | O => Ok 0xFFFF
  | S n' =>
    let! eq := same_string (skipn (N.to_nat p) img) name in
    if eq then Ok i
    else let! p := next_string img p in find_string img p name (i + 1) n'
  end.
(** cnd_get_key_id, vm_exec.c:581-591 *)
Definition get_key_id (img : list N) (pr : program) (name : list N) : result N :=
  find_string img (pr_string_table pr) (cstr name) 0 (N.to_nat (pr_string_count pr)).

(** load_il of the command line tool, cli_helpers.c:59-85: the string pointers are collected; the version is
    not looked at.  [None]: not a valid file. *)
Fixpoint string_pointers (img : list N) (p : N) (n : nat) : result (list N) :=
  match n with
  | O => Ok []
  | S n' => let! q := next_string img p in let! r := string_pointers img q n' in Ok (p :: r)
  end.
Definition cli_load_il (img : list N) : result (option (N * N * list N)) :=
  if lenN img <? 16 then Ok None
  else
    let! m := magic_ok img in
    if negb m then Ok None
    else
      let! str_count := img_u16 img 6 in
      let! str_offset := img_u32 img 8 in
      let! bc_offset := img_u32 img 12 in
      if (lenN img <? str_offset) || (lenN img <? bc_offset) then Ok None
      else
        let! ps := string_pointers img str_offset (N.to_nat str_count) in
        Ok (Some (bc_offset, lenN img - bc_offset, ps)).
