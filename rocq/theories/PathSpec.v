(** What a name of a file may and may not reach, independent of how paths are put together. *)
From Coq Require Import String Ascii List.
Import ListNotations.
Open Scope string_scope.

Fixpoint chars (s : string) : list ascii := match s with EmptyString => [] | String c r => c :: chars r end.
Definition slash_free (s : string) : Prop := ~ In "/"%char (chars s).
(** A name that is one component of a path *)
Definition plain (s : string) : Prop := s <> "" /\ s <> "." /\ s <> ".." /\ slash_free s.
(** The file or directory [q] lies in the directory [p] *)
Definition in_dir (p q : list string) : Prop := exists r, r <> [] /\ q = (p ++ r)%list.
