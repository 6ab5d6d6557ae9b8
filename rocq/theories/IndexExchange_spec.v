(** Meaning of the exchange of indices, independent of how it is done. *)
From Coq Require Import List Arith.
From Verif Require Import GlobalIndexing_model GlobalIndexing_spec IndexExchange_model.
Import ListNotations.

(** All processes have returned from the exchange. *)
Definition finished (n : nat) (s : System) : Prop := forall p, p < n -> phase (proc s p) = Done.
(** A run of [k] steps. *)
Inductive run (m : Mesh) (n : nat) (eager : bool) : nat -> System -> System -> Prop :=
  | run_none s : run m n eager 0 s s
  | run_more k s t u : run m n eager k s t -> step m n eager t u -> run m n eager (S k) s u.
(** What a process can be asked is what the owners of the objects answer. *)
Definition agree (m : Mesh) (r : nat -> GlobalIndexing) (s : System) (p : nat) : Prop :=
  forall e k x u, In e (elements m) -> visible m p e = true -> In (k, x) (objects_of_element m e) ->
    In u (includedUnknowns_ (r p)) ->
    exists q i, owned_by m q k x /\ getGlobalIndex (r q) k x u = Some i /\
                getGlobalIndex (indexing_ (proc s p)) k x u = Some i.

(** Three intervals on three processes.  Process 2 owns the element 2 and sees the element 1;
    the face 1 between the elements 0 and 1 belongs to process 0, from which process 2 does
    not see anything: it needs the second round. *)
Definition threeIntervals : Mesh := {|
  dimension := 1; numberOfUnknowns := 1; elements := [0; 1; 2]; owner := fun e => e;
  localElements := fun p => match p with 0 => [0] | 1 => [1] | 2 => [2] | _ => [] end;
  objectsOf := fun k e => match k with KFace => match e with 0 => [0; 1] | 1 => [1; 2] | 2 => [2; 3] | _ => [] end | _ => [] end;
  elementsOf := fun k x => match k with
    | KFace => match x with 0 => [0] | 1 => [0; 1] | 2 => [1; 2] | 3 => [2] | _ => [] end | _ => [] end;
  visible := fun p e => match p, e with 0, 2 => false | 2, 0 => false | _, _ => true end;
  localNumberOfBasisFunctions := fun k _ _ => match k with KElement => 2 | KFace => 1 | _ => 0 end
|}.
