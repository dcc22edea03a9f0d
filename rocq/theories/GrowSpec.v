(** Specification vocabulary for C77: how a file changes that is being written, or cut. *)
From Coq Require Import List NArith.
Import ListNotations.

(** Bytes were appended. *)
Definition grown (old new : list N) : Prop := exists more, new = old ++ more.
(** Bytes were appended, or bytes at the end were removed. *)
Definition resized (old new : list N) : Prop := grown old new \/ grown new old.
