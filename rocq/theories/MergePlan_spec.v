(** What it means that a pairing of coordinates identifies two entities of a mesh. *)
From Coq Require Import List Arith Relations Sorted.
From Verif Require Import StdMap_model PreMesh_model PreMesh_spec.
Import ListNotations.

(** [cs] are the coordinates that element [el] has for the nodes of its [l]-th part of dimension [d] *)
Definition coordinates_of (m : mesh) (d el l : nat) (cs : list nat) : Prop :=
  exists s nodes, shape_of m el = Some s /\ part s d l = Some nodes /\ Forall2 (fun n c => coord_of m el n = Some c) nodes cs.
(** the pairing maps the set [cs] to the set [cs'] *)
Definition maps_to (pairing : list (nat * nat)) (cs cs' : list nat) : Prop :=
  (forall c, In c cs -> exists c', In (c, c') pairing) /\
  (forall c', In c' cs' <-> exists c, In c cs /\ In (c, c') pairing).

(** MergePlan.h:159-181: nodes are identified by their coordinates, other entities by the coordinates on two elements *)
Definition identified (m : mesh) (pairing : list (nat * nat)) (d x y : nat) : Prop :=
  match d with
  | 0 => exists c c', In (c, c') pairing /\ nth_error (coordinates m) c = Some (Some x) /\ nth_error (coordinates m) c' = Some (Some y)
  | _ => exists el l el' l' cs cs', part_of m d el l = Some x /\ part_of m d el' l' = Some y /\
           coordinates_of m d el l cs /\ coordinates_of m d el' l' cs' /\ maps_to pairing cs cs'
  end.
(** identified in several steps *)
Definition connects (m : mesh) (pairing : list (nat * nat)) (d : nat) : nat -> nat -> Prop :=
  clos_refl_sym_trans nat (identified m pairing d).

(** Elements have all parts of their shapes, at least one per dimension; the nodes of a part exist, differ and there is at least one. *)
Definition whole (m : mesh) : Prop := forall el s, shape_of m el = Some s -> forall d, 1 <= d < length (meshEntities m) ->
  exists ps, nth_error s d = Some ps /\ ps <> [] /\
    (forall l, part_of m d el l <> None <-> l < length ps) /\
    forall l nodes, nth_error ps l = Some nodes -> nodes <> [] /\ NoDup nodes /\ forall n, In n nodes -> coord_of m el n <> None.
(** The nodes of an element have different coordinates. *)
Definition proper_elements (m : mesh) : Prop := forall el l l' c, coord_of m el l = Some c -> coord_of m el l' = Some c -> l = l'.
(** Parts with the same coordinates are the same entity. *)
Definition shared (m : mesh) : Prop := forall d el l x el' l' x' cs cs', 1 <= d ->
  part_of m d el l = Some x -> part_of m d el' l' = Some x' -> coordinates_of m d el l cs -> coordinates_of m d el' l' cs' ->
  (forall c, In c cs <-> In c cs') -> x = x'.

(** A std::map whose coordinates exist and belong to nodes. *)
Definition valid_pairing (m : mesh) (pairing : list (nat * nat)) : Prop :=
  StronglySorted (fun p q => fst p < fst q) pairing /\
  forall c c', In (c, c') pairing ->
    (exists n en, nth_error (coordinates m) c = Some (Some n) /\ links_of m 0 n = Some en) /\
    (exists n en, nth_error (coordinates m) c' = Some (Some n) /\ links_of m 0 n = Some en).
Definition injective (pairing : list (nat * nat)) : Prop := forall a b c, In (a, c) pairing -> In (b, c) pairing -> a = b.

(** What a merge plan needs of a mesh *)
Definition ready (m : mesh) : Prop := consistent m /\ whole m /\ proper_elements m /\ shared m.
