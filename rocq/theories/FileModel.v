(** * Reading files.

    Modelled source: src/base/File.cpp:10-86 (the branch without _WIN32), zs_malloc
    (src/base/Memory.cpp:9-19), and that the compiler gets the bytes as a text that ends with the
    first zero (src/ScriptEngine.cpp:932-949).  A file is the list of its bytes; the file does not
    change and can be opened if it exists.  Memory for at most 2^31 bytes is always there; more
    than that is never there, and zs_malloc then writes to the null pointer. *)
From Coq Require Import List ZArith Bool.
From Verif Require Import Base StringModel.
Import ListNotations.
Local Open Scope Z_scope.

(** What a name stands for. *)
Inductive node := Missing | Folder | Regular (b : list Z).

(** A long that is stored in an int of 32 bits. *)
Definition to_int (z : Z) : Z := (z + 2 ^ 31) mod 2 ^ 32 - 2 ^ 31.

(** File::exists (File.cpp:10-34).  If stat fails, the struct that is tested next has not been
    written (19-22): [UB]. *)
Definition exists_file (n : node) : res bool :=
  match n with Missing => UB | Folder => Ok false | Regular _ => Ok true end.

(** File::size (File.cpp:68-86) of a file; -1 without a file.  For folders the result of ftell
    is 2^63-1 on Linux. *)
Definition file_size (n : node) : Z :=
  match n with
  | Missing => -1
  | Folder => to_int (2 ^ 63 - 1)
  | Regular b => to_int (Z.of_nat (List.length b))
  end.

(** File::readText (File.cpp:36-66): the bytes of the buffer, which is one byte larger than the
    file and filled with zeros before.  length+1 (52) can overflow, and a negative number of bytes is a
    huge one for malloc. *)
Definition read_text (n : node) : res (list Z) :=
  match n with
  | Missing => Thr
  | _ =>
    let l := file_size n in
    if l =? -1 then Thr
    else if l + 1 =? 2 ^ 31 then UB
    else if l <? 0 then UB
    else
      let b := match n with Regular b => firstn (Z.to_nat l) b | _ => [] end in
      if Z.of_nat (List.length b) =? l then Ok (b ++ [0]) else Thr
  end.

(** The text that the compiler sees (ScriptEngine.cpp:945-949): up to the first zero. *)
Fixpoint c_text (b : list Z) : list Z :=
  match b with
  | [] => []
  | c :: b' => if c =? 0 then [] else c :: c_text b'
  end.
Definition source_text (n : node) : res (list Z) := do b <- read_text n; Ok (c_text b).
