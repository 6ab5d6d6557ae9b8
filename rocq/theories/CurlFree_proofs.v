(** Linear independence of the functions of Ainsworth and Coyle: the set. *)
From Coq Require Import List Arith Bool ZArith Reals Lra Lia.
From Verif Require Import Legendre_model Legendre_spec Legendre_proofs RefGeometry_model RefGeometry_spec RefGeometry_proofs BasisFunctions_model BasisSets_model Independence_spec FreeFamilies_proofs
  CurlBasis_model CurlBasis_spec CurlBasis_proofs CurlTraces_proofs CurlIndependence_proofs CurlAinsworth_proofs.
Import ListNotations.
Local Open Scope R_scope.

Lemma part_dec : forall a b : nat * nat * nat, {a = b} + {a <> b}.
Proof. decide equality; [apply Nat.eq_dec|]. decide equality; apply Nat.eq_dec. Qed.
Lemma ainsworth_injective : forall order f g, is_ainsworth order f -> is_ainsworth order g -> part_of f = part_of g -> degrees f = degrees g -> f = g.
Proof.
  intros order f g Hf Hg E1 E2. destruct (in_ainsworth order f Hf) as [Hp Ho], (in_ainsworth order g Hg) as [Hq Hr].
  destruct f; try contradiction; destruct g; try contradiction; cbn [part_of] in E1; try discriminate E1; cbn [degrees proper3 proper_function] in *;
    repeat match goal with E : (_, _) = (_, _) |- _ => apply pair_equal_spec in E; destruct E end; subst; try reflexivity. f_equal. lia.
Qed.
Lemma look_inside : forall j q, valid_part j -> near q -> inside (fst (look j q)).
Proof.
  intros [[r x] y] [u [v w]] V (Hu & Hv & Hw). cbn [fst snd] in *.
  destruct r as [|[|[|[|[|r]]]]]; cbn [valid_part] in V; try contradiction.
  - small x; small y; plain; cbn [inside]; lra.
  - small x; small y; plain; cbn [inside]; lra.
  - destruct V as [Hx [-> | ->]]; small x; plain; cbn [inside]; lra.
  - destruct V as [Hx ->]; small x; plain; cbn [inside]; lra.
  - destruct V as [[-> |[-> | ->]] ->]; plain; cbn [inside]; lra.
Qed.
Lemma factor_nonzero : forall j q, near q -> factor j q <> 0.
Proof.
  intros [[r x] y] [u [v w]] (Hu & Hv & Hw). cbn [fst snd] in *.
  destruct r as [|[|[|[|r]]]]; cbn [factor fst]; try lra; cbv zeta; repeat apply Rmult_integral_contrapositive_currified; lra.
Qed.
Lemma ainsworth_free : forall order, free seen (fun pt => inside (fst pt)) (is_ainsworth order).
Proof.
  intros order.
  apply (free_parts part_dec) with (part := part_of) (rank := fun j => fst (fst j)) (DJ := fun j pt => exists q, near q /\ pt = look j q).
  - intros f pt Hf (q & Hq & ->). apply look_inside; [exact (valid_part_of order f Hf)|exact Hq].
  - intros f g pt Hf Hg (q & Hq & ->) N L. apply (ainsworth_vanish order); [exact Hf|exact (valid_part_of order g Hg)|exact N|exact L].
  - intros g Hg. set (j := part_of g) in *. clearbody j. clear g Hg.
    apply free_map with (chi := legendres) (E := near) (Q := fun _ => True) (kappa := degrees) (a := fun _ => 1) (s := factor j) (g := look j).
    + exact legendres_free.
    + auto.
    + intros f g [Hf Hfj] [Hg Hgj] E. apply (ainsworth_injective order); congruence.
    + intros q Hq. exists q. split; [exact Hq|reflexivity].
    + intros q Hq. apply factor_nonzero. exact Hq.
    + intros; lra.
    + intros f q [Hf <-] _. exact (ainsworth_seen order f q Hf).
Qed.

Lemma ainsworth_nodup : forall order, NoDup (createDGBasisFunctionSet3DAinsworthCoyle order).
Proof.
  intros order. unfold createDGBasisFunctionSet3DAinsworthCoyle.
  assert (forall (k n : nat) (f : nat -> nat) (l : list nat), NoDup l -> (forall a b, f a = f b -> a = b) -> l = loop k n -> NoDup (map f l)) as NM.
  { intros k n f l Nl I _. induction Nl as [|a l Ha Nl IH]; cbn; constructor; [|exact IH].
    intros Hin. apply in_map_iff in Hin. destruct Hin as (b & E & Hb). apply I in E. subst. contradiction. }
  apply nodup_app; [|apply nodup_app; [|apply nodup_app|]|].
  - apply nodup_flat_map; [apply loop_nodup|intros; nodup_list|]. intros i j x _ _ Hi Hj. in_list Hi; cbn [In] in Hj; intuition congruence.
  - apply nodup_flat_map; [apply (NM 2%nat order); [apply loop_nodup|intros; lia|reflexivity]|intros; nodup_list|].
    intros i j x _ _ Hi Hj. in_list Hi; cbn [In] in Hj; intuition congruence.
  - apply nodup_flat_map; [apply loop_nodup| |].
    + intros l _. apply nodup_flat_map; [apply loop_nodup|intros; nodup_list|]. intros i j x _ _ Hi Hj. in_list Hi; cbn [In] in Hj; intuition congruence.
    + intros i j x _ _ Hi Hj. apply in_flat_map in Hi, Hj. destruct Hi as (m & _ & Hi), Hj as (m' & _ & Hj). in_list Hi; cbn [In] in Hj; intuition congruence.
  - apply nodup_flat_map; [apply loop_nodup| |].
    + intros l _. apply nodup_flat_map; [apply loop_nodup| |].
      * intros m _. apply nodup_flat_map; [apply loop_nodup|intros; nodup_list|]. intros i j x _ _ Hi Hj. in_list Hi; cbn [In] in Hj; intuition congruence.
      * intros i j x _ _ Hi Hj. apply in_flat_map in Hi, Hj. destruct Hi as (m & _ & Hi), Hj as (m' & _ & Hj). in_list Hi; cbn [In] in Hj; intuition congruence.
    + intros i j x _ _ Hi Hj. apply in_flat_map in Hi, Hj. destruct Hi as (m & _ & Hi), Hj as (m' & _ & Hj).
      apply in_flat_map in Hi, Hj. destruct Hi as (n & _ & Hi), Hj as (n' & _ & Hj). in_list Hi; cbn [In] in Hj; intuition congruence.
  - intros x Hi Hj. apply in_flat_map in Hi, Hj. destruct Hi as (m & _ & Hi), Hj as (m' & _ & Hj).
    apply in_flat_map in Hi, Hj. destruct Hi as (n & _ & Hi), Hj as (n' & _ & Hj). apply in_flat_map in Hj. destruct Hj as (o & _ & Hj).
    in_list Hi; cbn [In] in Hj; intuition congruence.
  - intros x Hi Hj. apply in_flat_map in Hi. destruct Hi as (m & _ & Hi). apply in_app_or in Hj.
    destruct Hj as [Hj|Hj]; apply in_flat_map in Hj; destruct Hj as (m' & _ & Hj); apply in_flat_map in Hj; destruct Hj as (n' & _ & Hj);
      [|apply in_flat_map in Hj; destruct Hj as (o & _ & Hj)]; in_list Hi; cbn [In] in Hj; intuition congruence.
  - intros x Hi Hj. apply in_flat_map in Hi. destruct Hi as (m & _ & Hi). apply in_app_or in Hj. destruct Hj as [Hj|Hj];
      [|apply in_app_or in Hj; destruct Hj as [Hj|Hj]]; apply in_flat_map in Hj; destruct Hj as (m' & _ & Hj);
      [|apply in_flat_map in Hj; destruct Hj as (n' & _ & Hj)|apply in_flat_map in Hj; destruct Hj as (n' & _ & Hj); apply in_flat_map in Hj; destruct Hj as (o & _ & Hj)];
      in_list Hi; cbn [In] in Hj; intuition congruence.
Qed.
Lemma ainsworth_independent : forall order, curl_independent Tetrahedron (createDGBasisFunctionSet3DAinsworthCoyle order).
Proof.
  intros order. apply free_independent; [apply ainsworth_nodup|intros f H; apply (in_ainsworth order f H)|exact (ainsworth_free order)].
Qed.
