(** C36: reordering of element nodes between file formats and hpGEM. *)
From Coq Require Import List Arith Permutation.
From Verif Require Import Reorder_model Reorder_spec Reorder_proofs.
Import ListNotations.

(** After any history of registrations, converting to hpGEM order and back (and
    conversely) is the identity for each registered permutation; the converted
    list has node [order[i]] of the input at position [i] and is a permutation of
    the input. *)
Theorem C36_reorder_roundtrip : forall (A : Type) hist r dim order (ind : list A),
  register_all [] hist = Some r -> In (dim, order) hist -> length order = length ind ->
  is_permutation order ->
  exists hp fo,
    reorderToHpGem r dim ind = Some hp /\ rearranged order ind hp /\ Permutation ind hp /\
    reorderFromHpGem r dim hp = Some ind /\
    reorderFromHpGem r dim ind = Some fo /\ rearranged order fo ind /\ Permutation ind fo /\
    reorderToHpGem r dim fo = Some ind.
Proof. exact @reorder_roundtrip. Qed.
Print Assumptions C36_reorder_roundtrip.

(** Every order accepted by the registration check only uses valid positions. *)
Theorem C36_reorder_in_range : forall (A : Type) hist r dim order (ind : list A),
  register_all [] hist = Some r -> In (dim, order) hist -> length order = length ind ->
  exists hp, reorderToHpGem r dim ind = Some hp /\ rearranged order ind hp.
Proof. exact @reorder_in_range. Qed.
Print Assumptions C36_reorder_in_range.

(** The registration check accepts every non-empty permutation... *)
Theorem C36_permutations_accepted : forall order,
  order <> [] -> is_permutation order -> checkOrder order = Some true.
Proof. exact permutation_accepted. Qed.
Print Assumptions C36_permutations_accepted.

(** ... but also lists with repeated nodes, contrary to its message that the
    order has to contain all indices contiguously; a node is then lost. *)
Theorem C36_check_rejects_non_permutations_refuted :
  exists order r hp back,
    register_all [] [(2, order)] = Some r /\ ~ is_permutation order /\
    reorderToHpGem r 2 [10; 11; 12] = Some hp /\ ~ Permutation [10; 11; 12] hp /\
    reorderFromHpGem r 2 [20; 21; 22] = Some back /\
    reorderToHpGem r 2 back <> Some [20; 21; 22].
Proof.
  exists [0; 0; 2], [{| e_dim := 2; e_order := [0; 0; 2] |}], [10; 10; 12], [21; 21; 22].
  split; [reflexivity|]. split.
  - intros H. apply is_permutation_range in H as [_ [H _]].
    inversion H as [|? ? Hn _]. apply Hn. left. reflexivity.
  - split; [reflexivity|]. split; [|split; [reflexivity|discriminate]].
    intros H. assert (In 11 [10; 10; 12]) as Hin
      by (eapply Permutation_in; [exact H|simpl; tauto]).
    simpl in Hin. intuition discriminate.
Qed.
Print Assumptions C36_check_rejects_non_permutations_refuted.

(** The tables registered by the gmsh reader are accepted and are permutations. *)
Theorem C36_gmsh_orders_roundtrip :
  exists r, register_all [] gmsh_orders = Some r /\
  forall (A : Type) dim order (ind : list A), In (dim, order) gmsh_orders ->
    length order = length ind ->
    exists hp, reorderToHpGem r dim ind = Some hp /\ rearranged order ind hp /\
               Permutation ind hp /\ reorderFromHpGem r dim hp = Some ind.
Proof.
  eexists. split; [reflexivity|]. intros A dim order ind Hin Hl.
  assert (Hp : is_permutation order).
  { clear ind Hl. simpl in Hin.
    repeat (destruct Hin as [Hin|Hin];
            [inversion Hin; subst; unfold is_permutation; apply NoDup_Permutation_bis;
             [repeat constructor; simpl; intuition discriminate
             |rewrite seq_length; apply le_n
             |intros x Hx; apply in_seq; simpl in *; intuition (subst; auto with arith)]|]).
    contradiction. }
  destruct (reorder_roundtrip gmsh_orders _ dim order ind eq_refl Hin Hl Hp)
    as (hp & fo & H1 & H2 & H3 & H4 & _).
  exists hp. auto.
Qed.
Print Assumptions C36_gmsh_orders_roundtrip.

(** The gmsh reader reorders the nodes of every element it reads, but no order is
    registered for the 4-node tetrahedron (gmsh type 4) although that type is
    listed as supported: reading one aborts, whatever its nodes. *)
Theorem C36_gmsh_linear_tetrahedron_refuted :
  exists t dim n, In (t, dim, n) gmsh_linear_types /\
  forall (A : Type) r (ind : list A), register_all [] gmsh_orders = Some r ->
    length ind = n -> reorderToHpGem r dim ind = None.
Proof.
  exists 4, 3, 4. split; [simpl; tauto|].
  intros A r ind H Hl. injection H as <-.
  unfold reorderToHpGem. rewrite Hl. reflexivity.
Qed.
Print Assumptions C36_gmsh_linear_tetrahedron_refuted.

Example C36_reorder_roundtrip_nonvacuous :
  let hist := [(2, [0; 1; 3; 2]); (3, [4; 1; 2; 0; 3])] in
  exists r, register_all [] hist = Some r /\ In (3, [4; 1; 2; 0; 3]) hist /\
            is_permutation [4; 1; 2; 0; 3] /\
            reorderToHpGem r 3 [10; 11; 12; 13; 14] = Some [14; 11; 12; 10; 13].
Proof.
  eexists. split; [reflexivity|]. split; [simpl; tauto|]. split; [|reflexivity].
  unfold is_permutation. simpl.
  apply NoDup_Permutation_bis.
  - repeat constructor; simpl; intuition discriminate.
  - simpl; auto.
  - intros x Hx; simpl in *; intuition.
Qed.
