(** Meaning of global indices, independent of how they are computed. *)
From Coq Require Import List Arith ZArith Bool.
From Verif Require Import StdMap_model GlobalIndexing_model.
Import ListNotations.

(** The elements next to an object. *)
Definition adjacent (m : Mesh) (k : Kind) (x : nat) : list nat :=
  match k with KElement => [x] | _ => elementsOf m k x end.

(** What the rest of the code guarantees about a mesh spread over [n] processes. *)
Record valid_mesh (n : nat) (m : Mesh) : Prop := {
  vm_owner : forall e, In e (elements m) -> owner m e < n;
  vm_local : forall p e, In e (localElements m p) <-> In e (elements m) /\ owner m e = p;
  vm_local_distinct : forall p, NoDup (localElements m p);
  (** an element does not list the same face, edge or node twice *)
  vm_objects_distinct : forall k e, In e (elements m) -> NoDup (objectsOf m k e);
  vm_adjacency : forall k e x, k <> KElement -> In e (elements m) ->
    (In x (objectsOf m k e) <-> In e (elementsOf m k x));
  vm_adjacent_exist : forall k e x, k <> KElement -> In e (elementsOf m k x) -> In e (elements m);
  (** a process sees its elements and every element that touches one of them *)
  vm_sees_own : forall e, In e (elements m) -> visible m (owner m e) e = true;
  vm_shadow : forall k x e e', k <> KElement -> In e (elementsOf m k x) -> In e' (elementsOf m k x) ->
    visible m (owner m e) e' = true
}.

(** Kinds that carry basis functions: in one dimension the nodes are the faces. *)
Definition carries (m : Mesh) (k : Kind) : Prop := match k with KNode => 1 < dimension m | _ => True end.
(** The objects of the mesh that carry basis functions. *)
Definition mesh_object (m : Mesh) (k : Kind) (x : nat) : Prop :=
  carries m k /\ exists e, In e (elements m) /\ In e (adjacent m k x).
(** An object belongs to the process that owns the first of its elements. *)
Definition owned_by (m : Mesh) (p : nat) (k : Kind) (x : nat) : Prop :=
  exists e, hd_error (adjacent m k x) = Some e /\ owner m e = p.

(** A degree of freedom: object, unknown, number of the basis function. *)
Record dof := { d_kind : Kind; d_id : nat; d_unknown : nat; d_fn : nat }.
Definition is_dof (m : Mesh) (us : list nat) (d : dof) : Prop :=
  mesh_object m (d_kind d) (d_id d) /\ In (d_unknown d) us /\
  d_fn d < localNumberOfBasisFunctions m (d_kind d) (d_id d) (d_unknown d).
Definition dof_owned_by (m : Mesh) (p : nat) (d : dof) : Prop := owned_by m p (d_kind d) (d_id d).

(** The indices that the answers of a process give to a degree of freedom. *)
Definition index_of (g : GlobalIndexing) (d : dof) : option nat :=
  option_map (fun i => i + d_fn d) (getGlobalIndex g (d_kind d) (d_id d) (d_unknown d)).
Definition local_index_of (g : GlobalIndexing) (d : dof) : option Z :=
  option_map (fun i => (i + Z.of_nat (d_fn d))%Z) (getProcessorLocalIndex g (d_kind d) (d_id d) (d_unknown d)).

(** The unknowns that take part. *)
Definition included (m : Mesh) (unknowns : option (list nat)) : list nat :=
  match unknowns with None => seq 0 (numberOfUnknowns m) | Some us => us end.
Definition valid_unknowns (m : Mesh) (unknowns : option (list nat)) : Prop :=
  match unknowns with None => True | Some us => us <> [] /\ forall u, In u us -> u < numberOfUnknowns m end.

(** [r p] is what reset() computes on process [p]. *)
Definition indexing (m : Mesh) (n : nat) (layout : Layout) (unknowns : option (list nat))
    (r : nat -> GlobalIndexing) : Prop :=
  forall p, p < n -> reset m n layout unknowns p = Some (r p).

(** [r] numbers [d] with [i]: that is the answer of the process that owns [d]. *)
Definition numbered (m : Mesh) (r : nat -> GlobalIndexing) (d : dof) (i : nat) : Prop :=
  exists p, dof_owned_by m p d /\ index_of (r p) d = Some i.

(** The degrees of freedom with support on element [e], in the documented order. *)
Definition objects_of_element (m : Mesh) (e : nat) : list object :=
  (KElement, e) :: map (pair KFace) (objectsOf m KFace e) ++ map (pair KEdge) (objectsOf m KEdge e) ++
  (if 1 <? dimension m then map (pair KNode) (objectsOf m KNode e) else []).
Definition dofs_of_element (m : Mesh) (us : list nat) (e : nat) : list dof :=
  flat_map (fun u => flat_map (fun o : object =>
    map (fun i => {| d_kind := fst o; d_id := snd o; d_unknown := u; d_fn := i |})
        (seq 0 (localNumberOfBasisFunctions m (fst o) (snd o) u)))
    (objects_of_element m e)) us.

(** A process that, besides its own numbering, knows the numbers of everything on the
    elements it sees (see IndexExchange for how it gets them). *)
Definition informed (m : Mesh) (r : nat -> GlobalIndexing) (p : nat) (g : GlobalIndexing) : Prop :=
  totalNumberOfUnknowns_ g = totalNumberOfUnknowns_ (r p) /\
  includedUnknowns_ g = includedUnknowns_ (r p) /\
  (forall u, includedInIndex_ (offsets_ g u) = includedInIndex_ (offsets_ (r p) u)) /\
  forall e k x u, In e (elements m) -> visible m p e = true -> In (k, x) (objects_of_element m e) ->
    In u (includedUnknowns_ (r p)) ->
    exists q, owned_by m q k x /\ getGlobalIndex g k x u = getGlobalIndex (r q) k x u.
(** getNumberOfBasisFunctions(unknown) of an element counts all of them. *)
Definition counts_all (m : Mesh) (total : nat -> nat -> nat) : Prop :=
  forall e u, In e (elements m) ->
    total e u = length (dofs_of_element m [u] e).
(** The number of basis functions of the processes before [p]. *)
Definition indices_before (r : nat -> GlobalIndexing) (p : nat) : nat :=
  fold_right Nat.add 0 (map (fun q => localNumberOfBasisFunctions_ (r q)) (seq 0 p)).
(** Every index below the total is used by exactly one degree of freedom. *)
Definition bijective (m : Mesh) (n : nat) (us : list nat) (r : nat -> GlobalIndexing) : Prop :=
  exists N,
  (forall p, p < n -> globalNumberOfBasisFunctions_ (r p) = N) /\
  (forall d, is_dof m us d -> exists i, numbered m r d i /\ i < N) /\
  (forall d i j, is_dof m us d -> numbered m r d i -> numbered m r d j -> i = j) /\
  (forall d d' i, is_dof m us d -> is_dof m us d' -> numbered m r d i -> numbered m r d' i -> d = d') /\
  (forall i, i < N -> exists d, is_dof m us d /\ numbered m r d i).

(** Two elements with a common face and a common node, on two processes. *)
Definition twoElements : Mesh := {|
  dimension := 2; numberOfUnknowns := 2; elements := [0; 1]; owner := fun e => e;
  localElements := fun p => match p with 0 => [0] | 1 => [1] | _ => [] end;
  objectsOf := fun k e => match k, e with
    | KFace, 0 => [0; 1] | KFace, 1 => [0; 2]
    | KNode, 0 => [5; 3] | KNode, 1 => [3; 4] | _, _ => [] end;
  elementsOf := fun k x => match k, x with
    | KFace, 0 => [1; 0] | KFace, 1 => [0] | KFace, 2 => [1]
    | KNode, 3 => [0; 1] | KNode, 4 => [1] | KNode, 5 => [0] | _, _ => [] end;
  visible := fun _ _ => true;
  localNumberOfBasisFunctions := fun k _ u => match k, u with
    | KElement, 0 => 1 | KElement, _ => 3 | KFace, 0 => 2 | KNode, 0 => 1 | _, _ => 0 end
|}.
(** One element whose two faces are the same face (periodic in one direction). *)
Definition selfNeighbour : Mesh := {|
  dimension := 2; numberOfUnknowns := 1; elements := [0]; owner := fun _ => 0;
  localElements := fun p => match p with 0 => [0] | _ => [] end;
  objectsOf := fun k e => match k, e with KFace, 0 => [0; 0] | _, _ => [] end;
  elementsOf := fun k x => match k, x with KFace, 0 => [0; 0] | _, _ => [] end;
  visible := fun _ _ => true;
  localNumberOfBasisFunctions := fun k _ _ => match k with KFace => 1 | _ => 0 end
|}.
Definition answer (m : Mesh) (n : nat) (layout : Layout) (unknowns : option (list nat)) (p : nat) : GlobalIndexing :=
  match reset m n layout unknowns p with
  | Some g => g
  | None => {| offsets_ := fun _ => noOffsets false; totalNumberOfUnknowns_ := 0; localNumberOfBasisFunctions_ := 0;
               globalNumberOfBasisFunctions_ := 0; includedUnknowns_ := [] |}
  end.
(** The same two elements on one process. *)
Definition twoOnOne : Mesh := {|
  dimension := 2; numberOfUnknowns := 2; elements := [0; 1]; owner := fun _ => 0;
  localElements := fun p => match p with 0 => [0; 1] | _ => [] end;
  objectsOf := objectsOf twoElements; elementsOf := elementsOf twoElements; visible := fun _ _ => true;
  localNumberOfBasisFunctions := localNumberOfBasisFunctions twoElements
|}.
