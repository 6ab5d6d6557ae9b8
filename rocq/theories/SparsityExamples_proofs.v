(** The sparsity estimate on small meshes: the hypotheses of the theorems can be met, and the errors of the check. *)
From Coq Require Import List Arith ZArith Lia Bool.
From Verif Require Import GlobalIndexing_model GlobalIndexing_spec GlobalIndexing_proofs Sparsity_model Sparsity_spec SparsityCount_proofs SparsityMain_proofs.
Import ListNotations.

Lemma intervals3_valid : valid_mesh 2 intervals3.
Proof.
  constructor.
  - cbn. intros e [<-|[<-|[<-|[]]]]; cbn; lia.
  - intros p e. cbn. destruct p as [|[|p]]; cbn; split; intuition (subst; try lia; auto).
  - intros p. destruct p as [|[|p]]; cbn; repeat constructor; cbn; intuition lia.
  - intros k e He. cbn in He. destruct k; cbn; try constructor.
    destruct He as [<-|[<-|[<-|[]]]]; repeat constructor; cbn; intuition lia.
  - intros k e x Hk He. cbn in He. destruct k; [congruence| |cbn; tauto|cbn; tauto].
    destruct He as [<-|[<-|[<-|[]]]]; destruct x as [|[|[|[|x]]]]; cbn; intuition lia.
  - intros k e x Hk He. destruct k; [congruence| |destruct He|destruct He].
    destruct x as [|[|[|[|x]]]]; cbn in *; intuition lia.
  - intros e He. cbn in He. destruct He as [<-|[<-|[<-|[]]]]; reflexivity.
  - intros k x e e' Hk He He'. destruct k; [congruence| |destruct He|destruct He].
    destruct x as [|[|[|[|x]]]]; cbn in He, He'; intuition (subst; reflexivity).
Qed.
Lemma corner_valid : valid_mesh 2 corner.
Proof.
  constructor.
  - cbn. intros e [<-|[<-|[<-|[]]]]; cbn; lia.
  - intros p e. cbn. destruct p as [|[|p]]; cbn; split; intuition (subst; try lia; auto).
  - intros p. destruct p as [|[|p]]; cbn; repeat constructor; cbn; intuition lia.
  - intros k e He. cbn in He. destruct He as [<-|[<-|[<-|[]]]]; destruct k; cbn; repeat constructor; cbn; intuition lia.
  - intros k e x Hk He. cbn in He. destruct He as [<-|[<-|[<-|[]]]]; destruct k; try congruence; destruct x as [|x]; cbn; intuition lia.
  - intros k e x Hk He. destruct k; [congruence| |destruct He|]; destruct x as [|x]; cbn in *; intuition lia.
  - intros e He. cbn in He. destruct He as [<-|[<-|[<-|[]]]]; reflexivity.
  - intros k x e e' Hk He He'. destruct k; [congruence| |destruct He|]; destruct x as [|x]; cbn in He, He'; intuition (subst; reflexivity).
Qed.
Lemma intervals3_two_sided : two_sided intervals3.
Proof. intros x. destruct x as [|[|[|[|x]]]]; cbn; lia. Qed.
Lemma corner_two_sided : two_sided corner.
Proof. intros x. destruct x as [|x]; cbn; lia. Qed.
Lemma intervals3_lists : local_lists intervals3 0 [0; 1] [0; 1; 2].
Proof.
  split.
  - intros e. cbn. split; [intros [<-|[<-|[]]]; cbn; tauto|]. intros ([<-|[<-|[<-|[]]]] & H); cbn in *; tauto || discriminate.
  - intros x. split.
    + intros [<-|[<-|[<-|[]]]]; [exists 0|exists 0|exists 1]; cbn; tauto.
    + intros (e & He & Hv & Hx). cbn in He. destruct He as [<-|[<-|[<-|[]]]]; cbn in *; tauto || discriminate.
Qed.
Lemma corner_lists : local_lists corner 0 [0; 1] [0].
Proof.
  split.
  - intros e. cbn. split; [intros [<-|[<-|[]]]; cbn; tauto|]. intros ([<-|[<-|[<-|[]]]] & H); cbn in *; tauto || discriminate.
  - intros x. split.
    + intros [<-|[]]. exists 1. cbn. tauto.
    + intros (e & He & Hv & Hx). cbn in He. destruct He as [<-|[<-|[<-|[]]]]; cbn in *; tauto || discriminate.
Qed.
Lemma intervals3_meets : meets_along_face intervals3 0.
Proof. intros _. exists 1, 0, 1. cbn. intuition lia. Qed.

Lemma owned_face x : In x [0; 1; 2; 3] -> owned_by intervals3 (match x with 0 | 1 => 0 | _ => 1 end) KFace x.
Proof. intros [<-|[<-|[<-|[<-|[]]]]]; eexists; cbn; split; reflexivity. Qed.
Ltac look := split; [reflexivity|]; split; [reflexivity|]; split.
Ltac by_object :=
  match goal with |- exists q, owned_by intervals3 q KElement ?e /\ _ =>
    exists (owner intervals3 e); split; [exists e; split; reflexivity|vm_compute; reflexivity]
  | |- exists q, owned_by intervals3 q KFace ?x /\ _ =>
    exists (match x with 0 | 1 => 0 | _ => 1 end); split; [apply owned_face; cbn; tauto|vm_compute; reflexivity] end.
Lemma informed3_ok unk us : In (unk, us) [(None, [0; 1; 2]); (Some [1], [1]); (Some [1; 2], [1; 2])] ->
  informed intervals3 (answer intervals3 2 SEQUENTIAL unk) 0 (informed3 unk us) /\
  keeps_local (answer intervals3 2 SEQUENTIAL unk 0) (informed3 unk us).
Proof.
  intros H. destruct H as [E|[E|[E|[]]]]; injection E as <- <-; (split; [look|split; [reflexivity|]]).
  all: try (intros u; destruct u as [|[|[|u]]]; try split; reflexivity).
  all: intros e k x u He Hv Ho Hu; destruct He as [<-|[<-|[<-|[]]]]; try discriminate Hv.
  all: vm_compute in Hu; vm_compute in Ho.
  all: repeat match goal with H : _ \/ _ |- _ => destruct H as [H|H] end; try contradiction; injection Ho as <- <-; subst u; by_object.
Qed.
Lemma informedCorner_ok : informed corner (answer corner 2 SEQUENTIAL None) 0 informedCorner /\ keeps_local (answer corner 2 SEQUENTIAL None 0) informedCorner.
Proof.
  split; [look|split; [reflexivity|]].
  all: try (intros u; destruct u as [|u]; try split; reflexivity).
  intros e k x u He Hv Ho Hu; destruct He as [<-|[<-|[<-|[]]]]; try discriminate Hv; vm_compute in Hu; vm_compute in Ho.
  all: repeat match goal with H : _ \/ _ |- _ => destruct H as [H|H] end; try contradiction; injection Ho as <- <-; subst u.
  1: exists 0. 2: exists 0. 3: exists 1. 4: exists 1. 5: exists 0.
  all: split; [eexists; split; [reflexivity|reflexivity]|vm_compute; reflexivity].
Qed.

(** A count that is too low. *)
Lemma count_low (P : dof -> Prop) n l : NoDup l -> (forall d, In d l -> P d) -> n < length l -> ~ count P n.
Proof.
  intros ND H L (l' & ND' & H' & E). pose proof (NoDup_incl_length ND (fun d Hd => proj2 (H' d) (H d Hd))). lia.
Qed.
Definition D (k : Kind) (x u : nat) : dof := {| d_kind := k; d_id := x; d_unknown := u; d_fn := 0 |}.

Ltac nodup := repeat (constructor; [cbn; unfold D; intuition congruence|]); constructor.
Lemma nd3 : NoDup [0; 1; 2].
Proof. nodup. Qed.
(** Coupling of unknowns 0 and 2, which are on elements only. *)
Lemma intervals3_based u v :
  allowed [0; 1; 2] [0; 1; 2] (fun i _ => negb (i =? 1)) u v -> element_based intervals3 u.
Proof.
  intros (i & j & Hi & _ & H) k x _ Hk. destruct i as [|[|[|i]]]; try discriminate; cbn in Hi; try (injection Hi as <-; destruct k; cbn; congruence).
  destruct i; discriminate.
Qed.

Definition face1 := D KFace 1 1.
(** Only unknown 1 takes part, which has basis functions on faces: no error, and the row of face 1 is too short. *)
Lemma check_misses :
  let g := informed3 (Some [1]) [1] in let fc := fun _ _ => true in let est := ([3; 3; 3], [2; 2; 2]) in
  computeSparsityEstimate intervals3 0 g g (length (includedUnknowns_ g)) (length (includedUnknowns_ g)) fc [0; 1] [0; 1; 2] = Some est /\
  ~ exact_estimate intervals3 0 (allowed (includedUnknowns_ g) (includedUnknowns_ g) fc) [1] [1] g est.
Proof.
  cbv zeta. split; [vm_compute; reflexivity|]. intros (_ & _ & H).
  destruct (H face1) as (l & a & b & E & _ & _ & Eb & C).
  - split; [split; [exact I|exists 0; cbn; tauto]|]. cbn. lia.
  - exists 0. split; reflexivity.
  - assert (EL : l = 2). { vm_compute in E. injection E as E. assert (Z.of_nat l = 2%Z) by (symmetry; exact E). lia. }
    subst l. injection Eb as <-. refine (count_low _ 2 [D KElement 1 1; D KElement 2 1; D KFace 2 1] _ _ _ C); [nodup| |cbn; lia].
    intros d Hd. repeat split.
    + destruct Hd as [<-|[<-|[<-|[]]]]; exact I.
    + destruct Hd as [<-|[<-|[<-|[]]]]; [exists 1|exists 2|exists 1]; cbn; tauto.
    + destruct Hd as [<-|[<-|[<-|[]]]]; cbn; tauto.
    + destruct Hd as [<-|[<-|[<-|[]]]]; cbn; lia.
    + destruct Hd as [<-|[<-|[<-|[]]]]; intros (e & He & Ho); cbn in He; injection He as <-; discriminate.
    + right. split.
      * exists 0, 0. destruct Hd as [<-|[<-|[<-|[]]]]; repeat split; reflexivity.
      * exists 2. destruct Hd as [<-|[<-|[<-|[]]]]; [exists 1, 1|exists 1, 2|exists 1, 1]; cbn; tauto.
Qed.
(** Unknowns 1 and 2 take part, only 2 couples through faces, and it is on elements only: an error nevertheless. *)
Lemma check_spurious :
  let g := informed3 (Some [1; 2]) [1; 2] in let fc := fun i j => (i =? 1) && (j =? 1) in
  (forall u v, allowed (includedUnknowns_ g) (includedUnknowns_ g) fc u v -> element_based intervals3 u) /\
  computeSparsityEstimate intervals3 0 g g (length (includedUnknowns_ g)) (length (includedUnknowns_ g)) fc [0; 1] [0; 1; 2] = None.
Proof.
  cbv zeta. split; [|vm_compute; reflexivity]. intros u v (i & j & Hi & _ & H). apply andb_prop in H. destruct H as (H & _).
  apply Nat.eqb_eq in H. subst i. vm_compute in Hi. injection Hi as <-. intros k x _ Hk. destruct k; cbn; congruence.
Qed.
(** Processes that meet in a node only: all unknowns take part, no error, and the row of the node is too short. *)
Lemma corner_misses :
  let g := informedCorner in let fc := fun _ _ => true in let est := ([2; 2], [0; 1]) in
  computeSparsityEstimate corner 0 g g (length (includedUnknowns_ g)) (length (includedUnknowns_ g)) fc [0; 1] [0] = Some est /\
  ~ exact_estimate corner 0 (allowed (includedUnknowns_ g) (includedUnknowns_ g) fc) [0] [0] g est.
Proof.
  cbv zeta. split; [vm_compute; reflexivity|]. intros (_ & _ & H).
  destruct (H (D KNode 0 0)) as (l & a & b & E & _ & _ & Eb & C).
  - split; [split; [cbn; lia|exists 0; cbn; tauto]|]. cbn. lia.
  - exists 0. split; reflexivity.
  - assert (EL : l = 1). { vm_compute in E. injection E as E. assert (Z.of_nat l = 1%Z) by (symmetry; exact E). lia. }
    subst l. injection Eb as <-. refine (count_low _ 1 [D KElement 1 0; D KElement 2 0] _ _ _ C); [nodup| |cbn; lia].
    intros d Hd. repeat split.
    + destruct Hd as [<-|[<-|[]]]; exact I.
    + destruct Hd as [<-|[<-|[]]]; [exists 1|exists 2]; cbn; tauto.
    + destruct Hd as [<-|[<-|[]]]; cbn; tauto.
    + destruct Hd as [<-|[<-|[]]]; cbn; lia.
    + destruct Hd as [<-|[<-|[]]]; intros (e & He & Ho); cbn in He; injection He as <-; discriminate.
    + right. split.
      * exists 0, 0. destruct Hd as [<-|[<-|[]]]; repeat split; reflexivity.
      * exists 0. destruct Hd as [<-|[<-|[]]]; [exists 1, 1|exists 1, 2]; cbn; tauto.
Qed.
