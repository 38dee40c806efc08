(** * Compiling files that import each other.

    Modelled source: ScriptEngine::isFilenameAlreadyParsed and compileFile
    (src/ScriptEngine.cpp:884-891, 914-974), the directive import (src/compiler/compiler.cpp:342-403)
    and the errors of compiler_compile_and_link (61-129) as far as they end a file.

    The text of a file is the list of its statements ([item]); what a statement compiles to is a
    number.  The file system is given by parameters and does not change: [regular d n] is the
    answer of File::exists for the name n in the directory d (src/base/File.cpp:10-34; of a file
    that is missing any answer, as the status is not initialised), [read d n] the text that
    File::readText returns or [None] if it throws, [cd d n] the directory after
    changeDir(getDirectory(n)), which is d if that fails.  Going back to the directory where one
    was succeeds.  Left out: the code compiled before an error and messages. *)
From Coq Require Import List ZArith.
Import ListNotations.
Local Open Scope Z_scope.

Definition name := list Z.
Definition name_dec : forall a b : name, {a = b} + {a <> b} := list_eq_dec Z.eq_dec.
Inductive item := Stmt (x : Z) | Import (n : name) | Bad.

Section Files.
Variable dir : Type.
Variable cd : dir -> name -> dir.
Variable regular : dir -> name -> bool.
Variable read : dir -> name -> option (list item).

(** parsed_files of the engine, the directory of the process, and the code of the main function. *)
Record state := mkS { parsed : list name; cwd : dir; code : list Z }.
(** [More]: the steps given do not suffice. *)
Inductive outcome := Done (s : state) | Error (s : state) | More.

(** isFilenameAlreadyParsed (ScriptEngine.cpp:884-891). *)
Definition already_parsed (n : name) (s : state) : bool := if in_dec name_dec n (parsed s) then true else false.
(** parsed_files.push (ScriptEngine.cpp:925-928). *)
Definition mark (n : name) (s : state) : state := mkS (parsed s ++ [n]) (cwd s) (code s).
(** Directory::changeDir (base/Directory.cpp:26-31). *)
Definition go_to (d : dir) (s : state) : state := mkS (parsed s) d (code s).
(** A statement is compiled into the current function. *)
Definition emit (x : Z) (s : state) : state := mkS (parsed s) (cwd s) (code s ++ [x]).

(** compiler_compile_recursive (compiler.cpp:312-420) for the text of a file; the import of a
    name (372-398). *)
Fixpoint compile_items (compile_file : state -> name -> outcome) (l : list item) (s : state) : outcome :=
  match l with
  | [] => Done s
  | Stmt x :: l' => compile_items compile_file l' (emit x s)
  | Bad :: _ => Error s
  | Import n :: l' =>
      if regular (cwd s) n then
        match compile_file s n with Done s' => compile_items compile_file l' s' | o => o end
      else Error s
  end.
(** compileFile (ScriptEngine.cpp:914-974); the directory is restored at line 961 after errors
    too. *)
Definition restore (d : dir) (o : outcome) : outcome :=
  match o with Done s => Done (go_to d s) | Error s => Error (go_to d s) | More => More end.
Fixpoint compile_file (fuel : nat) (s : state) (n : name) : outcome :=
  match fuel with
  | O => More
  | S f =>
      if already_parsed n s then Done s
      else
        let s1 := mark n s in
        match read (cwd s1) n with
        | None => Error s1
        | Some l => restore (cwd s1) (compile_items (compile_file f) l (go_to (cd (cwd s1) n) s1))
        end
  end.
End Files.
Arguments mkS {dir}. Arguments parsed {dir}. Arguments cwd {dir}. Arguments code {dir}.
Arguments Done {dir}. Arguments Error {dir}. Arguments More {dir}.
Arguments mark {dir}. Arguments go_to {dir}. Arguments emit {dir}.
