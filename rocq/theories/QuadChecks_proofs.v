(** The interval computations for each of the registered rules. *)
From Coq Require Import List Arith NArith ZArith Reals Lra Lia Bool.
From Verif Require Import RefGeometry_model Quadrature_model Quadrature_spec QuadIntegral_proofs QuadInterval_proofs Quadrature_proofs QuadRules_proofs.
Import ListNotations.

Ltac by_check := apply integrates_checked; [reflexivity|vm_compute; reflexivity].
Ltac by_symmetry := apply integrates_T; [reflexivity|reflexivity|vm_compute; reflexivity].

Lemma points_agree : Forall (fun r => getNumberOfPoints r = length (entries r)) registered.
Proof. repeat constructor. Qed.

Lemma points_internal : forallb (fun r => internal_entries (forReferenceGeometry r) (entries r)) registered = true.
Proof. vm_compute. reflexivity. Qed.

Lemma points_dimension : forallb (fun r => forallb (fun e => Nat.eqb (length (snd e)) (dimension (forReferenceGeometry r))) (entries r)) registered = true.
Proof. vm_compute. reflexivity. Qed.

Lemma Cn1_1_1_ok : integrates Cn1_1_1 (N.of_nat 1).
Proof. by_check. Qed.
Lemma Cn1_3_2_ok : integrates Cn1_3_2 (N.of_nat 3).
Proof. by_check. Qed.
Lemma Cn1_5_3_ok : integrates Cn1_5_3 (N.of_nat 5).
Proof. by_check. Qed.
Lemma C1_7_4_ok : integrates C1_7_4 (N.of_nat 7).
Proof. by_check. Qed.
Lemma C1_9_5_ok : integrates C1_9_5 (N.of_nat 9).
Proof. by_check. Qed.
Lemma C1_11_6_ok : integrates C1_11_6 (N.of_nat 11).
Proof. by_check. Qed.
Lemma Cn2_1_1_ok : integrates Cn2_1_1 (N.of_nat 1).
Proof. by_check. Qed.
Lemma Cn2_3_4_ok : integrates Cn2_3_4 (N.of_nat 3).
Proof. by_check. Qed.
Lemma Cn2_5_9_ok : integrates Cn2_5_9 (N.of_nat 5).
Proof. by_check. Qed.
Lemma C2_7_4_ok : integrates C2_7_4 (N.of_nat 7).
Proof. by_check. Qed.
Lemma C2_9_5_ok : integrates C2_9_5 (N.of_nat 9).
Proof. apply integrates_2 with (entries C1_9_5); [reflexivity|reflexivity|reflexivity|vm_compute; reflexivity]. Qed.
Lemma C2_11_6_ok : integrates C2_11_6 (N.of_nat 11).
Proof. apply integrates_2 with (entries C1_11_6); [reflexivity|reflexivity|reflexivity|vm_compute; reflexivity]. Qed.
Lemma Tn2_1_1_ok : integrates Tn2_1_1 (N.of_nat 1).
Proof. by_check. Qed.
Lemma Tn2_2_3_ok : integrates Tn2_2_3 (N.of_nat 2).
Proof. by_check. Qed.
Lemma Tn2_4_6_ok : integrates Tn2_4_6 (N.of_nat 4).
Proof. by_check. Qed.
Lemma T2_5_7_ok : integrates T2_5_7 (N.of_nat 5).
Proof. by_check. Qed.
Lemma T2_6_12_ok : integrates T2_6_12 (N.of_nat 6).
Proof. by_check. Qed.
Lemma T2_8_16_ok : integrates T2_8_16 (N.of_nat 8).
Proof. by_check. Qed.
Lemma T2_9_19_ok : integrates T2_9_19 (N.of_nat 9).
Proof. by_check. Qed.
Lemma T2_10_25_ok : integrates T2_10_25 (N.of_nat 10).
Proof. by_check. Qed.
Lemma T2_11_28_ok : integrates T2_11_28 (N.of_nat 11).
Proof. by_check. Qed.
Lemma Cn3_1_1_ok : integrates Cn3_1_1 (N.of_nat 1).
Proof. by_check. Qed.
Lemma Cn3_3_4_ok : integrates Cn3_3_4 (N.of_nat 3).
Proof. by_check. Qed.
Lemma Cn3_5_9_ok : integrates Cn3_5_9 (N.of_nat 5).
Proof. by_check. Qed.
Lemma C3_7_2_ok : integrates C3_7_2 (N.of_nat 7).
Proof. apply integrates_3 with (entries C1_7_4); [reflexivity|reflexivity|reflexivity|vm_compute; reflexivity]. Qed.
Lemma C3_9_2_ok : integrates C3_9_2 (N.of_nat 9).
Proof. apply integrates_3 with (entries C1_9_5); [reflexivity|reflexivity|reflexivity|vm_compute; reflexivity]. Qed.
Lemma C3_11_2_ok : integrates C3_11_2 (N.of_nat 11).
Proof. apply integrates_3 with (entries C1_11_6); [reflexivity|reflexivity|reflexivity|vm_compute; reflexivity]. Qed.
Lemma Pyramid_1_4_ok : integrates Pyramid_1_4 (N.of_nat 1).
Proof. by_check. Qed.
Lemma Pyramid_3_16_ok : integrates Pyramid_3_16 (N.of_nat 3).
Proof. by_check. Qed.
Lemma Pyramid_5_36_ok : integrates Pyramid_5_36 (N.of_nat 5).
Proof. by_check. Qed.
Lemma Pyramid_7_48_ok : integrates Pyramid_7_48 (N.of_nat 7).
Proof. by_check. Qed.
Lemma Tn3_1_1_ok : integrates Tn3_1_1 (N.of_nat 1).
Proof. by_symmetry. Qed.
Lemma Tn3_2_4_ok : integrates Tn3_2_4 (N.of_nat 2).
Proof. by_symmetry. Qed.
Lemma Tn3_3_10_ok : integrates Tn3_3_10 (N.of_nat 3).
Proof. by_symmetry. Qed.
Lemma Tn3_4_14_ok : integrates Tn3_4_14 (N.of_nat 4).
Proof. by_symmetry. Qed.
Lemma T3_5_14_ok : integrates T3_5_14 (N.of_nat 5).
Proof. by_symmetry. Qed.
Lemma T3_6_24_ok : integrates T3_6_24 (N.of_nat 6).
Proof. by_symmetry. Qed.
Lemma T3_7_31_ok : integrates T3_7_31 (N.of_nat 6).
Proof. by_symmetry. Qed.
Lemma T3_8_43_ok : integrates T3_8_43 (N.of_nat 8).
Proof. by_symmetry. Qed.
Lemma T3_9_53_ok : integrates T3_9_53 (N.of_nat 8).
Proof. by_symmetry. Qed.
Lemma T3_10_126_ok : integrates T3_10_126 (N.of_nat 11).
Proof. by_symmetry. Qed.
Lemma TriPrism_1_1_ok : integrates TriPrism_1_1 (N.of_nat 1).
Proof. by_check. Qed.
Lemma TriPrism_5_21_ok : integrates TriPrism_5_21 (N.of_nat 5).
Proof. by_check. Qed.
Lemma TriPrism_7_64_ok : integrates TriPrism_7_64 (N.of_nat 7).
Proof. by_check. Qed.
Lemma Cn4_1_1_ok : integrates Cn4_1_1 (N.of_nat 1).
Proof. by_check. Qed.
Lemma Cn4_3_16_ok : integrates Cn4_3_16 (N.of_nat 3).
Proof. by_check. Qed.
