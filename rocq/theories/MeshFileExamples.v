(** Meshes that can be written and read. *)
From Coq Require Import String Ascii List Arith Lia Bool Permutation Sorted.
From Verif Require Import Loop_model Std_model StdMap_model StdMap_proofs PreMesh_model PreShapes_model PreMesh_spec PreMesh_proofs PreMesh_theorems MeshFile_model MeshFile_spec.
Import ListNotations.

(** three triangles in a row on two processes *)
Definition triangleOps := [AddNode; AddNode; AddNode; AddNode; AddNode; AddCoordinate 0; AddCoordinate 1; AddCoordinate 2; AddCoordinate 3; AddCoordinate 4;
  AddElement [0; 1; 2]; AddElement [1; 2; 3]; AddElement [2; 3; 4]].
Definition triangleMesh := Eval vm_compute in match history triangleOps (empty 2) with Some m => m | None => empty 2 end.
Definition triangles : input nat := Input nat triangleMesh [[0; 0]; [1; 0]; [0; 1]; [1; 1]; [1; 2]] ["Main"%string; "Air"%string] [0; 1; 0] [0; 1; 1].
Definition triangle (nodes : nat) := if nodes =? 3 then Some ([[0; 1]; [0; 2]; [1; 2]], [(0, 0); (1, 1); (2, 2)]) else None.
Lemma triangles_ready : ready triangle triangles 2 2.
Proof.
  constructor.
  - apply (C52_consistent 2 triangleOps); [lia|vm_compute; reflexivity].
  - reflexivity.
  - intros [|[|[|[|el]]]] [|[|[|[|j]]]] c H; vm_compute in H; try discriminate; injection H as <-; eexists; split; reflexivity.
  - split; [reflexivity|]. cbn. intros p [<-|[<-|[<-|[]]]]; lia.
  - split; [reflexivity|]. cbn. intros z [<-|[<-|[<-|[]]]]; lia.
  - intros [|[|[|[|el]]]] [|[|[|[|j]]]] [|[|[|[|k]]]] v H H'; vm_compute in H, H'; try discriminate; congruence.
  - intros x links H. do 8 (destruct x as [|x]; [vm_compute in H; try discriminate; injection H as <-; cbn; lia|]). vm_compute in H. discriminate.
  - intros [|[|[|[|el]]]] e H; vm_compute in H; try discriminate; injection H as <-; (split; [reflexivity|]); eexists _, _, _; (split; [reflexivity|]); (split; [discriminate|]); (split; [reflexivity|]);
    (split; [|split; [discriminate|split; [intros f v [<-|[<-|[<-|[]]]] [<-|[<-|[]]]; cbn; lia|intros a b [[= <- <-]|[[= <- <-]|[[= <- <-]|[]]]]; cbn; lia]]]);
    intros [|[|[|[|l]]]]; vm_compute; split; intros Q; try lia; try discriminate; exfalso; apply Q; reflexivity.
Qed.

(** two tetrahedra, one for each process *)
Definition tetrahedronOps := [AddNode; AddNode; AddNode; AddNode; AddNode; AddCoordinate 0; AddCoordinate 1; AddCoordinate 2; AddCoordinate 3; AddCoordinate 4;
  AddElement [0; 1; 2; 3]; AddElement [1; 2; 3; 4]].
Definition tetrahedronMesh := Eval vm_compute in match history tetrahedronOps (empty 3) with Some m => m | None => empty 3 end.
Definition tetrahedra : input nat := Input nat tetrahedronMesh [[0; 0; 0]; [1; 0; 0]; [0; 1; 0]; [0; 0; 1]; [1; 1; 1]] ["Main"%string] [0; 0] [0; 1].
Definition tetrahedron (nodes : nat) := if nodes =? 4 then Some ([[0; 3; 2]; [0; 1; 3]; [0; 2; 1]; [1; 2; 3]], [(0, 1); (0, 2); (0, 3); (2, 3); (1, 3); (1, 2)]) else None.
Lemma tetrahedra_ready : ready tetrahedron tetrahedra 3 2.
Proof.
  constructor.
  - apply (C52_consistent 3 tetrahedronOps); [lia|vm_compute; reflexivity].
  - reflexivity.
  - intros [|[|[|el]]] [|[|[|[|[|j]]]]] c H; vm_compute in H; try discriminate; injection H as <-; eexists; split; reflexivity.
  - split; [reflexivity|]. cbn. intros p [<-|[<-|[]]]; lia.
  - split; [reflexivity|]. cbn. intros z [<-|[<-|[]]]; lia.
  - intros [|[|[|el]]] [|[|[|[|[|j]]]]] [|[|[|[|[|k]]]]] v H H'; vm_compute in H, H'; try discriminate; congruence.
  - intros x links H. do 8 (destruct x as [|x]; [vm_compute in H; try discriminate; injection H as <-; cbn; lia|]). vm_compute in H. discriminate.
  - intros [|[|[|el]]] e H; vm_compute in H; try discriminate; injection H as <-; (split; [reflexivity|]); eexists _, _, _; (split; [reflexivity|]); (split; [discriminate|]); (split; [reflexivity|]);
    (split; [|split; [intros _|split; [intros f v [<-|[<-|[<-|[<-|[]]]]] [<-|[<-|[<-|[]]]]; cbn; lia|intros a b H; repeat (destruct H as [[= <- <-]|H]; [cbn; lia|]); destruct H]]]);
    intros [|[|[|[|[|[|[|l]]]]]]]; vm_compute; split; intros Q; try lia; try discriminate; exfalso; apply Q; reflexivity.
Qed.

(** three squares in a ring on two processes: the left side of the first is the right side of the last *)
Definition ringOps := [AddNode; AddNode; AddNode; AddNode; AddNode; AddNode;
  AddCoordinate 0; AddCoordinate 1; AddCoordinate 2; AddCoordinate 0; AddCoordinate 3; AddCoordinate 4; AddCoordinate 5; AddCoordinate 3;
  AddElement [0; 1; 4; 5]; AddElement [1; 2; 5; 6]; AddElement [2; 3; 6; 7]].
Definition ringMesh := Eval vm_compute in match history ringOps (empty 2) with Some m => m | None => empty 2 end.
Definition ring : input nat := Input nat ringMesh [[0; 0]; [1; 0]; [2; 0]; [3; 0]; [0; 1]; [1; 1]; [2; 1]; [3; 1]] ["Main"%string] [0; 0; 0] [0; 0; 1].
Definition square (nodes : nat) := if nodes =? 4 then Some ([[0; 1]; [0; 2]; [1; 3]; [2; 3]], [(0, 0); (1, 1); (2, 2); (3, 3)]) else None.
Lemma ring_ready : ready square ring 2 2.
Proof.
  constructor.
  - apply (C52_consistent 2 ringOps); [lia|vm_compute; reflexivity].
  - reflexivity.
  - intros [|[|[|[|el]]]] [|[|[|[|[|j]]]]] c H; vm_compute in H; try discriminate; injection H as <-; eexists; split; reflexivity.
  - split; [reflexivity|]. cbn. intros p [<-|[<-|[<-|[]]]]; lia.
  - split; [reflexivity|]. cbn. intros z [<-|[<-|[<-|[]]]]; lia.
  - intros [|[|[|[|el]]]] [|[|[|[|[|j]]]]] [|[|[|[|[|k]]]]] v H H'; vm_compute in H, H'; try discriminate; congruence.
  - intros x links H. do 10 (destruct x as [|x]; [vm_compute in H; try discriminate; injection H as <-; cbn; lia|]). vm_compute in H. discriminate.
  - intros [|[|[|[|el]]]] e H; vm_compute in H; try discriminate; injection H as <-; (split; [reflexivity|]); eexists _, _, _; (split; [reflexivity|]); (split; [discriminate|]); (split; [reflexivity|]);
    (split; [|split; [discriminate|split; [intros f v [<-|[<-|[<-|[<-|[]]]]] [<-|[<-|[]]]; cbn; lia|intros a b H; repeat (destruct H as [[= <- <-]|H]; [cbn; lia|]); destruct H]]]);
    intros [|[|[|[|[|l]]]]]; vm_compute; split; intros Q; try lia; try discriminate; exfalso; apply Q; reflexivity.
Qed.

(** one square whose left side is its right side: it has the same node twice *)
Definition loopOps := [AddNode; AddNode; AddCoordinate 0; AddCoordinate 0; AddCoordinate 1; AddCoordinate 1; AddElement [0; 1; 2; 3]].
Definition loopMesh := Eval vm_compute in match history loopOps (empty 2) with Some m => m | None => empty 2 end.
Definition loop : input nat := Input nat loopMesh [[0; 0]; [1; 0]; [0; 1]; [1; 1]] ["Main"%string] [0] [0].
