(** The parts of a path.

    Source: /repo/src/base/Path.cpp:9-49 over the functions of [StringModel]
    (findLastOf, getSubstring and the copies of String).

    Simplification: whether a directory exists (Directory::exists) is a parameter. *)
From Coq Require Import List ZArith Bool.
From Verif Require Import Base StringModel.
Import ListNotations.
Local Open Scope Z_scope.

(** Path.cpp:9-21; [dir]: the path is a directory. *)
Definition getDirectory (dir : bool) (s : cstring) : res cstring :=
  if dir then s_copy s
  else
    do sep <- s_lit [92; 47];
    do pos <- s_findLastOf s sep (-1);
    if pos =? -1 then s_lit [] else s_getSubstring s 0 pos.

(** Path.cpp:23-31. *)
Definition getFilename (s : cstring) : res cstring :=
  do ss <- s_copy s;
  do sep <- s_lit [47; 92];
  do found <- s_findLastOf s sep (-1);
  if found =? -1 then Ok ss
  else do r <- s_getSubstring s (found + 1) (-1); s_copy r.

(** Path.cpp:33-48. *)
Definition getFilenameWithoutExtension (s : cstring) : res cstring :=
  do file <- getFilename s;
  do fname <- s_copy file;
  do dot <- s_lit [46];
  do pos <- s_findLastOf fname dot (-1);
  if pos =? -1 then Ok fname
  else if pos =? 0 then Ok fname
  else s_getSubstring fname 0 pos.
