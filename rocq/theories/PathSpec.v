(** Specification of paths: the components of a path and where it leads.  Independent of the code's algorithms. *)
From Coq Require Import List NArith Bool Arith.
Import ListNotations.
From Verif Require Import Bytes.
Local Open Scope nat_scope.

(** The parts of a string between the occurrences of a character. *)
Fixpoint parts (c : N) (s : bytes) : list bytes :=
  match s with
  | [] => [[]]
  | d :: r => if (d =? c)%N then [] :: parts c r
              else match parts c r with p :: l => (d :: p) :: l | [] => [[d]] end
  end.
Definition nonempty (s : bytes) : bool := 0 <? length s.
(** The components of a path: what lies between slashes and is not empty. *)
Definition slash : N := 47.
Definition comps (p : bytes) : list bytes := filter nonempty (parts slash p).
Definition rooted (p : bytes) : bool := match p with c :: _ => (c =? slash)%N | [] => false end.
(** A component that can stand in a path, and one that is the name of something: neither "." nor "..". *)
Definition plain (e : bytes) : Prop := e <> [] /\ ~ In slash e.
Definition name (e : bytes) : Prop := plain e /\ e <> [46%N] /\ e <> [46%N; 46%N].
(** Where a path leads, from a directory given as the names on the way to it, the innermost first; without
    symbolic links.  At the root ".." leads to the root. *)
Definition step (dir : list bytes) (e : bytes) : list bytes :=
  if beqb e [46%N] then dir else if beqb e [46%N; 46%N] then tl dir else e :: dir.
Definition walk (dir : list bytes) (path : bytes) : list bytes :=
  fold_left step (comps path) (if rooted path then [] else dir).
(** The bytes of a list of strings with a character between each two. *)
Fixpoint intercalate (c : N) (l : list bytes) : bytes :=
  match l with [] => [] | [e] => e | e :: r => e ++ c :: intercalate c r end.
