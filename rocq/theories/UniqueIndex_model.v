(** Model of kernel/Base/GlobalUniqueIndex.{h,cpp}: four counters of type
    [std::size_t], which wraps around at 2^64. *)
From Coq Require Import List NArith.
Import ListNotations.
Open Scope N_scope.

Inductive kind := Element | Face | Edge | Node.

(** GlobalUniqueIndex.h:66-69, the private members *)
Record counters := { elementIndex : N; faceIndex : N; edgeIndex : N; nodeIndex : N }.

(** GlobalUniqueIndex.h:66-69, the initial values, and GlobalUniqueIndex.cpp:43-46
    [instance]: one object per process. *)
Definition initial : counters :=
  {| elementIndex := 0; faceIndex := 0; edgeIndex := 0; nodeIndex := 0 |}.

(** post-increment of a [std::size_t] *)
Definition incr (n : N) : N := (n + 1) mod 2 ^ 64.

(** GlobalUniqueIndex.cpp:48-56 [getElementIndex], [getFaceIndex],
    [getEdgeIndex], [getNodeIndex] *)
Definition getIndex (k : kind) (s : counters) : N * counters :=
  match k with
  | Element => (elementIndex s,
      {| elementIndex := incr (elementIndex s); faceIndex := faceIndex s;
         edgeIndex := edgeIndex s; nodeIndex := nodeIndex s |})
  | Face => (faceIndex s,
      {| elementIndex := elementIndex s; faceIndex := incr (faceIndex s);
         edgeIndex := edgeIndex s; nodeIndex := nodeIndex s |})
  | Edge => (edgeIndex s,
      {| elementIndex := elementIndex s; faceIndex := faceIndex s;
         edgeIndex := incr (edgeIndex s); nodeIndex := nodeIndex s |})
  | Node => (nodeIndex s,
      {| elementIndex := elementIndex s; faceIndex := faceIndex s;
         edgeIndex := edgeIndex s; nodeIndex := incr (nodeIndex s) |})
  end.

(** a sequence of calls; the result pairs each call with the returned number *)
Fixpoint calls (s : counters) (h : list kind) : list (kind * N) :=
  match h with
  | [] => []
  | k :: h' => let (n, s') := getIndex k s in (k, n) :: calls s' h'
  end.
