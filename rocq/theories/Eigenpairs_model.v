(** Model of Utilities::Eigenpairs (kernel/Utilities/Eigenpairs.h, Eigenpairs.cpp), the list of eigenpairs that a solver
    gave, together with the arrays of PETSc vectors that it allocates.
    An array of vectors is an entry of [arrays]; [None] there means that it has been destroyed.  A vector is [None] as
    long as it has not been written.  [V] is the content of a vector, [K] an eigenvalue.
    A result [None] is a failed assertion, an access out of range, or the use of memory that has been freed.
    Simplification: calls of PETSc and SLEPc do not fail. *)
From Coq Require Import List Arith.
Import ListNotations.

Notation "x <- a ; b" := (match a with None => None | Some x => b end) (at level 100, a at next level, right associativity).
Notation "' p <- a ; b" := (match a with None => None | Some p => b end) (at level 100, p pattern, a at next level, right associativity).

Section Eigenpairs.
Context {K V : Type}.

(** Eigenpairs.h:131-141, the members *)
Record object := Object { numberOfEigenvectors : nat; eigenvectors : option nat; eigenvalues : list K; ordering : list nat }.
Definition heap := list (option (list (option V))).
Definition set {A : Type} (k : nat) (x : A) (l : list A) : list A := firstn k l ++ x :: skipn (S k) l.

(** VecDestroyVecs (PETSc): nothing for a null pointer or no vectors *)
Definition VecDestroyVecs (n : nat) (v : option nat) (h : heap) : option heap :=
  match n, v with
  | O, _ | _, None => Some h
  | _, Some a => match nth_error h a with Some (Some _) => Some (set a None h) | _ => None end
  end.
(** VecDuplicateVecs (PETSc): a new array, with undefined content *)
Definition VecDuplicateVecs (n : nat) (h : heap) : nat * heap := (length h, h ++ [Some (repeat None n)]).

(** Eigenpairs.cpp:45-49 *)
Definition empty : object := Object 0 None [] [].
(** Eigenpairs.cpp:63-69, the destructor *)
Definition destroy (o : object) (h : heap) : option heap :=
  if 0 <? numberOfEigenvectors o then VecDestroyVecs (numberOfEigenvectors o) (eigenvectors o) h else Some h.
(** Eigenpairs.cpp:79-88 reserve *)
Definition reserve (newSize : nat) (o : object) (h : heap) : option (object * heap) :=
  if newSize <=? numberOfEigenvectors o then Some (o, h)
  else
    h <- VecDestroyVecs (numberOfEigenvectors o) (eigenvectors o) h;
    let '(a, h) := VecDuplicateVecs newSize h in
    Some (Object newSize (Some a) (eigenvalues o) (ordering o), h).
(** Eigenpairs.cpp:96-114 loadEigenpairs; [solver] holds the pairs of the solver *)
Fixpoint getEigenpairs (i : nat) (solver : list (K * V)) (arr : list (option V)) : option (list (option V)) :=
  match solver with
  | [] => Some arr
  | (_, v) :: r => if i <? length arr then getEigenpairs (S i) r (set i (Some v) arr) else None
  end.
Definition loadEigenpairs (solver : list (K * V)) (o : object) (h : heap) : option (object * heap) :=
  '(o, h) <- reserve (length solver) o h;
  match solver with
  | [] => Some (Object (numberOfEigenvectors o) (eigenvectors o) [] [], h)
  | _ =>
      a <- eigenvectors o;
      arr <- nth_error h a;
      arr <- arr;
      arr <- getEigenpairs 0 solver arr;
      Some (Object (numberOfEigenvectors o) (Some a) (map fst solver) (seq 0 (length solver)), set a (Some arr) h)
  end.
(** Eigenpairs.cpp:116-126 reorder *)
Fixpoint lookups (l idx : list nat) : option (list nat) :=
  match idx with
  | [] => Some []
  | i :: r => x <- nth_error l i; xs <- lookups l r; Some (x :: xs)
  end.
Definition reorder (new : list nat) (o : object) : option object :=
  if length new =? length (eigenvalues o) then
    new <- lookups (ordering o) new;
    Some (Object (numberOfEigenvectors o) (eigenvectors o) (eigenvalues o) new)
  else None.
(** Eigenpairs.h:123-128 getEigenvalue; Eigenpairs.h:102-107 getEigenvector, and what is in the vector *)
Definition getEigenvalue (i : nat) (o : object) : option K :=
  if i <? length (eigenvalues o) then p <- nth_error (ordering o) i; nth_error (eigenvalues o) p else None.
Definition getEigenvector (i : nat) (o : object) (h : heap) : option (option V) :=
  if i <? length (eigenvalues o) then
    p <- nth_error (ordering o) i; a <- eigenvectors o; arr <- nth_error h a; arr <- arr; nth_error arr p
  else None.

(** A program with several objects; [None] for an object that has been destroyed. *)
Record world := World { objects : list (option object); arrays : heap }.
Inductive op :=
| New | Destroy (k : nat) | Store (k : nat) (solver : list (K * V)) | Reserve (k n : nat) | Reorder (k : nat) (new : list nat)
| MoveNew (k : nat)          (** Eigenpairs.cpp:51-61, the move constructor *)
| MoveAssign (k source : nat). (** Eigenpairs.cpp:71-77, move assignment to [k], which swaps *)
Definition object_at (k : nat) (w : world) : option object := o <- nth_error (objects w) k; o.
Definition step (w : world) (p : op) : option world :=
  match p with
  | New => Some (World (objects w ++ [Some empty]) (arrays w))
  | Destroy k => o <- object_at k w; h <- destroy o (arrays w); Some (World (set k None (objects w)) h)
  | Store k s => o <- object_at k w; '(o, h) <- loadEigenpairs s o (arrays w); Some (World (set k (Some o) (objects w)) h)
  | Reserve k n => o <- object_at k w; '(o, h) <- reserve n o (arrays w); Some (World (set k (Some o) (objects w)) h)
  | Reorder k new => o <- object_at k w; o <- reorder new o; Some (World (set k (Some o) (objects w)) (arrays w))
  | MoveNew k => o <- object_at k w; Some (World (set k (Some empty) (objects w) ++ [Some o]) (arrays w))
  | MoveAssign k j => o <- object_at k w; q <- object_at j w; Some (World (set j (Some o) (set k (Some q) (objects w))) (arrays w))
  end.
Fixpoint run (w : world) (ps : list op) : option world :=
  match ps with [] => Some w | p :: ps => w <- step w p; run w ps end.
Definition start : world := World [] [].
End Eigenpairs.
Arguments object : clear implicits.
Arguments heap : clear implicits.
Arguments world : clear implicits.
Arguments op : clear implicits.
