(** Theorems for C79: material tensors. *)
From Coq Require Import List Arith Reals Lia Lra.
From Verif Require Import Tensor_model Tensor_spec.
Import ListNotations.

Lemma pair_eq (a b c d : R) : a = c -> b = d -> (a, b) = (c, d).
Proof. now intros -> ->. Qed.
Lemma norm_pos (b : complex) : b <> (0, 0)%R -> (fst b * fst b + snd b * snd b <> 0)%R.
Proof.
  destruct b as [x y]. cbn. intros N H. apply N. pose proof (Rle_0_sqr x) as X. pose proof (Rle_0_sqr y) as Y. unfold Rsqr in *.
  apply pair_eq; apply Rsqr_0_uniq; unfold Rsqr; lra.
Qed.
Lemma div_mul a b : b <> (0, 0)%R -> cdiv (cmul a b) b = a /\ cmul (cdiv a b) b = a.
Proof.
  intros N. apply norm_pos in N. destruct a as [u v], b as [x y]. unfold cdiv, cmul. cbn in *. split; apply pair_eq; field; exact N.
Qed.
Lemma move a b c : cmul (cmul a b) (conj c) = cmul a (conj (cmul c (conj b))).
Proof. destruct a, b, c. unfold cmul, conj. cbn. apply pair_eq; ring. Qed.

(** C79: for a divergence every entry of the vector is multiplied with that of the diagonal; for a curl it is divided, where a
    curl in the plane is an entry in the third direction. *)
Theorem C79_entries : forall (t : tensor) (v : list complex), length v <= 3 ->
  length (applyDiv t v) = length v /\ length (applyCurl3 t v) = length v /\
  (forall i x a, nth_error v i = Some x -> diagonal t i a ->
     nth_error (applyDiv t v) i = Some (cmul x a) /\ nth_error (applyCurl3 t v) i = Some (cdiv x a)) /\
  (forall x r a, diagonal t 2 a -> applyCurl2 t (x :: r) = cdiv x a :: r).
Proof.
  intros t v L. assert (G : length (applyDiv t v) = length v /\ length (applyCurl3 t v) = length v).
  { destruct t as [s|x y z]; cbn; rewrite !map_length; [auto|]. rewrite combine_length. cbn. lia. }
  destruct G as [G1 G2]. split; [exact G1|]. split; [exact G2|]. split.
  - intros i x a H D. destruct D; cbn.
    + rewrite !nth_error_map, H. auto.
    + destruct v; [discriminate|]. injection H as ->. auto.
    + destruct v as [|? [|? v]]; try discriminate. injection H as ->. auto.
    + destruct v as [|? [|? [|? v]]]; try discriminate. injection H as ->. auto.
  - intros x r a D. inversion D; reflexivity.
Qed.
Print Assumptions C79_entries.

(** C79: the adjoint is the adjoint for the inner product. *)
Theorem C79_adjoint : forall (t : tensor) (v w : list complex), length v <= 3 -> length w <= 3 -> inner (applyDiv t v) w = inner v (applyDiv (adjoint t) w).
Proof.
  intros t v w L M. destruct t as [s|x y z]; cbn [applyDiv adjoint].
  - clear. revert w. induction v as [|a v IH]; intros [|b w]; cbn [map inner]; [reflexivity|reflexivity|reflexivity|]. now rewrite move, IH.
  - destruct v as [|a [|b [|c [|]]]]; cbn in L; try lia; destruct w as [|d [|e [|f [|]]]]; cbn in M; try lia; cbn [combine map inner fst snd]; rewrite ?move; reflexivity.
Qed.
Print Assumptions C79_adjoint.

(** C79: what is applied for curls is the inverse of what is applied for divergences. *)
Theorem C79_inverse : forall (t : tensor) (v : list complex), length v <= 3 -> invertible t ->
  applyCurl3 t (applyDiv t v) = v /\ applyDiv t (applyCurl3 t v) = v.
Proof.
  intros t v L N. destruct t as [s|x y z]; cbn [applyDiv applyCurl3].
  - assert (S : s <> (0, 0)%R) by exact (N 0 s (of_scalar s 0)). rewrite !map_map. split; (rewrite <- (map_id v) at 2; apply map_ext; intros a; now apply div_mul).
  - pose proof (N 0 x (of_x x y z)) as X. pose proof (N 1 y (of_y x y z)) as Y. pose proof (N 2 z (of_z x y z)) as Z.
    destruct v as [|a [|b [|c [|]]]]; cbn in L; try lia; cbn [combine map fst snd]; split; repeat f_equal; now apply div_mul.
Qed.
Print Assumptions C79_inverse.

(** C79: a number and the diagonal tensor with that number three times do the same. *)
Theorem C79_scalar : forall (s : complex) (v : list complex), length v <= 3 ->
  applyDiv (Scalar s) v = applyDiv (Diagonal s s s) v /\ applyCurl3 (Scalar s) v = applyCurl3 (Diagonal s s s) v /\
  applyCurl2 (Scalar s) v = applyCurl2 (Diagonal s s s) v /\
  applyDiv (adjoint (Scalar s)) v = applyDiv (adjoint (Diagonal s s s)) v.
Proof. intros s v L. destruct v as [|a [|b [|c [|]]]]; cbn in L; try lia; repeat split. Qed.
Print Assumptions C79_scalar.

Example C79_nonvacuous : invertible (Diagonal (1, 2) (0, 1) (3, 0))%R /\ applyDiv (Diagonal (1, 2) (0, 1) (3, 0))%R [(1, 0); (2, 0)]%R = [(1, 2); (0, 2)]%R /\
  diagonal (adjoint (Diagonal (1, 2) (0, 1) (3, 0)))%R 0 (1, -2)%R.
Proof.
  split; [intros i a D; inversion D; subst; intros H; injection H; lra|]. split.
  - cbn. unfold cmul. cbn. repeat f_equal; ring.
  - cbn. unfold conj. cbn. apply of_x.
Qed.
