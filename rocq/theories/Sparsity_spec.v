(** Which degrees of freedom a matrix couples, independent of how the estimate is computed. *)
From Coq Require Import List Arith ZArith Bool.
From Verif Require Import GlobalIndexing_model GlobalIndexing_spec Sparsity_model.
Import ListNotations.

(** A degree of freedom with support on element [e]. *)
Definition on_element (m : Mesh) (e : nat) (d : dof) : Prop := In (d_kind d, d_id d) (objects_of_element m e).

(** The table allows coupling of the unknowns [u] (of the rows) and [v] (of the columns) through faces. *)
Definition allowed (rowUnknowns columnUnknowns : list nat) (faceCoupling : nat -> nat -> bool) (u v : nat) : Prop :=
  exists i j, nth_error rowUnknowns i = Some u /\ nth_error columnUnknowns j = Some v /\ faceCoupling i j = true.

(** A row and a column have a common element, or they are on elements of one face and the table allows it. *)
Definition coupled (m : Mesh) (may : nat -> nat -> Prop) (d d' : dof) : Prop :=
  (exists e, In e (elements m) /\ on_element m e d /\ on_element m e d') \/
  (may (d_unknown d) (d_unknown d') /\ exists x e e', In e (elementsOf m KFace x) /\ In e' (elementsOf m KFace x) /\
     on_element m e d /\ on_element m e' d').

(** There are exactly [n] degrees of freedom with property [P]. *)
Definition count (P : dof -> Prop) (n : nat) : Prop := exists l, NoDup l /\ (forall d, In d l <-> P d) /\ length l = n.

(** The lists of elements and faces of process [p]: those it sees. *)
Definition local_lists (m : Mesh) (p : nat) (allElements faces : list nat) : Prop :=
  (forall e, In e allElements <-> In e (elements m) /\ visible m p e = true) /\
  (forall x, In x faces <-> exists e, In e (elements m) /\ visible m p e = true /\ In x (objectsOf m KFace e)).
(** A face has at most two elements. *)
Definition two_sided (m : Mesh) : Prop := forall x, length (elementsOf m KFace x) <= 2.

(** An indexing on process [p] after the exchange: it still has its own numbers. *)
Definition keeps_local (g0 g : GlobalIndexing) : Prop :=
  localNumberOfBasisFunctions_ g = localNumberOfBasisFunctions_ g0 /\
  forall u, blockStart_ (offsets_ g u) = blockStart_ (offsets_ g0 u) /\ localOffset_ (offsets_ g u) = localOffset_ (offsets_ g0 u).

(** The unknown is carried by elements only. *)
Definition element_based (m : Mesh) (u : nat) : Prop :=
  forall k x, mesh_object m k x -> k <> KElement -> localNumberOfBasisFunctions m k x u = 0.
(** Process [p] sees all elements that share a face with the support of a row it owns, if the unknown of the row may
    couple through faces. *)
Definition sees_coupled (m : Mesh) (p : nat) (may : nat -> nat -> Prop) : Prop :=
  forall u v k y x e e', may u v -> owned_by m p k y -> 0 < localNumberOfBasisFunctions m k y u ->
    In (k, y) (objects_of_element m e) -> In e (elementsOf m KFace x) -> In e' (elementsOf m KFace x) ->
    visible m p e' = true.
(** Where the elements of [p] touch those of other processes, they do so somewhere along a face. *)
Definition meets_along_face (m : Mesh) (p : nat) : Prop :=
  (exists e, In e (elements m) /\ visible m p e = true /\ owner m e <> p) ->
  exists x e e', In e (elementsOf m KFace x) /\ In e' (elementsOf m KFace x) /\ owner m e = p /\ owner m e' <> p.

(** The estimate [est] on process [p] is right: row by row, the number of coupled columns of [p] and of the others. *)
Definition exact_estimate (m : Mesh) (p : nat) (may : nat -> nat -> Prop) (rowUnknowns columnUnknowns : list nat)
    (gr : GlobalIndexing) (est : list nat * list nat) : Prop :=
  length (fst est) = localNumberOfBasisFunctions_ gr /\ length (snd est) = localNumberOfBasisFunctions_ gr /\
  forall d, is_dof m rowUnknowns d -> dof_owned_by m p d ->
    exists l a b, local_index_of gr d = Some (Z.of_nat l) /\
      nth_error (fst est) l = Some a /\ count (fun d' => is_dof m columnUnknowns d' /\ dof_owned_by m p d' /\ coupled m may d d') a /\
      nth_error (snd est) l = Some b /\ count (fun d' => is_dof m columnUnknowns d' /\ ~ dof_owned_by m p d' /\ coupled m may d d') b.

(** Assembly adds to entry ([d], [d']) of the matrix: some process adds the matrix of one of its elements, or of one of
    its faces, with a row for [d] and a column for [d'].  A matrix of a face has nonzero entries only where the table
    says so. *)
Definition inserted (m : Mesh) (n : nat) (rr rc gr gc : nat -> GlobalIndexing) (total : nat -> nat -> nat)
    (may : nat -> nat -> Prop) (d d' : dof) : Prop :=
  exists q rows columns i j, q < n /\ numbered m rr d i /\ numbered m rc d' j /\ In i rows /\ In j columns /\
    ((exists e, In e (localElements m q) /\ insertsElement m (gr q) (gc q) total e = Some (rows, columns)) \/
     (may (d_unknown d) (d_unknown d') /\
      exists x, (exists e, In e (elementsOf m KFace x) /\ visible m q e = true) /\ insertsFace m q (gr q) (gc q) total x = Some (rows, columns))).

(** Three intervals, the first on process 0 and the others on process 1, with three unknowns: two on elements only and,
    in between, one that also has a basis function on each face. *)
Definition intervals3 : Mesh := {|
  dimension := 1; numberOfUnknowns := 3; elements := [0; 1; 2]; owner := fun e => match e with 0 => 0 | _ => 1 end;
  localElements := fun p => match p with 0 => [0] | 1 => [1; 2] | _ => [] end;
  objectsOf := fun k e => match k with KFace => match e with 0 => [0; 1] | 1 => [1; 2] | 2 => [2; 3] | _ => [] end | _ => [] end;
  elementsOf := fun k x => match k with
    | KFace => match x with 0 => [0] | 1 => [0; 1] | 2 => [1; 2] | 3 => [2] | _ => [] end | _ => [] end;
  visible := fun p e => match p, e with 0, 2 => false | _, _ => true end;
  localNumberOfBasisFunctions := fun k _ u => match k, u with KElement, _ => 1 | KFace, 1 => 1 | _, _ => 0 end
|}.
(** Two elements that only share a node, on different processes; the second has a neighbour. *)
Definition corner : Mesh := {|
  dimension := 2; numberOfUnknowns := 1; elements := [0; 1; 2]; owner := fun e => match e with 0 => 0 | _ => 1 end;
  localElements := fun p => match p with 0 => [0] | 1 => [1; 2] | _ => [] end;
  objectsOf := fun k e => match k, e with KFace, 1 => [0] | KFace, 2 => [0] | KNode, 0 => [0] | KNode, 1 => [0] | _, _ => [] end;
  elementsOf := fun k x => match k, x with KFace, 0 => [1; 2] | KNode, 0 => [0; 1] | _, _ => [] end;
  visible := fun p e => match p, e with 0, 2 => false | _, _ => true end;
  localNumberOfBasisFunctions := fun k _ _ => match k with KElement => 1 | KNode => 1 | _ => 0 end
|}.
(** An indexing that has learned the index of one more object. *)
Definition learn (g : GlobalIndexing) (k : Kind) (x u v : nat) : GlobalIndexing :=
  {| offsets_ := upd (offsets_ g) u (putOffset (offsets_ g u) k x v); totalNumberOfUnknowns_ := totalNumberOfUnknowns_ g;
     localNumberOfBasisFunctions_ := localNumberOfBasisFunctions_ g; globalNumberOfBasisFunctions_ := globalNumberOfBasisFunctions_ g;
     includedUnknowns_ := includedUnknowns_ g |}.
(** Process 0 of [intervals3] with the indices of its neighbour: element 1 and face 2. *)
Definition informed3 (unknowns : option (list nat)) (us : list nat) : GlobalIndexing :=
  let r := answer intervals3 2 SEQUENTIAL unknowns in
  fold_left (fun g u => match getGlobalIndex (r 1) KElement 1 u, getGlobalIndex (r 1) KFace 2 u with
    | Some a, Some b => learn (learn g KElement 1 u a) KFace 2 u b | _, _ => g end) us (r 0).
Definition informedCorner : GlobalIndexing :=
  let r := answer corner 2 SEQUENTIAL None in
  match getGlobalIndex (r 1) KElement 1 0, getGlobalIndex (r 1) KFace 0 0 with
  | Some a, Some b => learn (learn (r 0) KElement 1 0 a) KFace 0 0 b | _, _ => r 0 end.
