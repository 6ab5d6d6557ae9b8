(** Derivatives of functions that are carried from one side of a face to the other. *)
From Coq Require Import List Arith Bool Lia Reals Lra.
From Verif Require Import Matrix_model Matrix_spec Determinant_model Determinant_spec RefGeometry_model RefGeometry_spec RefGeometry_proofs
  Curvilinear_model PhysMapping_model PhysMapping_spec PhysMapping_proofs PhysInverse_proofs
  Transformation_model Transformation_spec Transformation_proofs FaceRotation_model FaceRotation_spec FaceRotation_proofs.
Import ListNotations.
Local Open Scope R_scope.

(** ** Rotations *)
Definition cof (Q : nat -> nat -> R) (i j : nat) : R :=
  Q ((i + 1) mod 3)%nat ((j + 1) mod 3)%nat * Q ((i + 2) mod 3)%nat ((j + 2) mod 3)%nat -
  Q ((i + 1) mod 3)%nat ((j + 2) mod 3)%nat * Q ((i + 2) mod 3)%nat ((j + 1) mod 3)%nat.

Lemma cofactors : forall Q, is_rotation 3 Q -> forall i j, (i < 3)%nat -> (j < 3)%nat -> cof Q i j = Q i j.
Proof.
  intros Q [O D] i j Hi Hj.
  assert (O' : forall m, (m < 3)%nat -> Q 0%nat m * Q 0%nat j + Q 1%nat m * Q 1%nat j + Q 2%nat m * Q 2%nat j = kronecker m j)
    by (intros m Hm; rewrite <- (O m j Hm Hj), total_3; reflexivity).
  transitivity (cof Q i 0 * kronecker 0 j + cof Q i 1 * kronecker 1 j + cof Q i 2 * kronecker 2 j).
  - enum 3%nat j; try lia; cbn; ring.
  - rewrite <- !O' by lia. transitivity (Q i j * determinant_of 3 Q); [|rewrite D; ring].
    unfold determinant_of, cof. enum 3%nat i; try lia; cbn; ring.
Qed.
Lemma quarter : forall Q, is_rotation 2 Q -> Q 1%nat 1%nat = Q 0%nat 0%nat /\ Q 1%nat 0%nat = - Q 0%nat 1%nat.
Proof.
  intros Q [O D].
  assert (O' : forall i j, (i < 2)%nat -> (j < 2)%nat -> Q 0%nat i * Q 0%nat j + Q 1%nat i * Q 1%nat j = kronecker i j)
    by (intros i j Hi Hj; rewrite <- (O i j Hi Hj), total_2; reflexivity).
  assert (A := O' 0%nat 0%nat ltac:(lia) ltac:(lia)). assert (B := O' 1%nat 1%nat ltac:(lia) ltac:(lia)).
  assert (C := O' 0%nat 1%nat ltac:(lia) ltac:(lia)). cbn in A, B, C. cbn in D.
  set (a := Q 0%nat 0%nat) in *. set (b := Q 0%nat 1%nat) in *. set (c := Q 1%nat 0%nat) in *. set (e := Q 1%nat 1%nat) in *.
  assert (D' : a * e - b * c = 1) by (rewrite <- D; ring). split.
  - transitivity (e * (a * a + c * c)); [rewrite A; ring|].
    transitivity (a * (a * e - b * c) + c * (a * b + c * e)); [ring|]. rewrite D', C. ring.
  - transitivity (c * (b * b + e * e)); [rewrite B; ring|].
    transitivity (- b * (a * e - b * c) + e * (a * b + c * e)); [ring|]. rewrite D', C. ring.
Qed.

Lemma rotation_rows : forall d Q, (2 <= d <= 3)%nat -> is_rotation d Q ->
  forall i j, (i < d)%nat -> (j < d)%nat -> total d (fun k => Q i k * Q j k) = kronecker i j.
Proof.
  intros d Q Hd Rot i j Hi Hj. assert (D := proj2 Rot). unfold determinant_of in D. two_or_three d.
  - destruct (quarter Q Rot) as [E F]. cbn in D. rewrite total_2. enum 2%nat i; try lia; enum 2%nat j; try lia; cbn; rewrite ?E, ?F in *; try ring;
      transitivity (1 : R); try reflexivity; rewrite <- D; ring.
  - rewrite (total_ext 3 _ (fun k => Q i k * cof Q j k)) by (intros k Hk; rewrite cofactors by assumption; reflexivity).
    rewrite total_3. transitivity (kronecker i j * leibniz 0 1 Rplus Rmult Ropp 3 Q); [|rewrite D; ring].
    unfold cof. enum 3%nat i; try lia; enum 3%nat j; try lia; cbn; ring.
Qed.

Lemma nth_map_seq : forall d (f : nat -> R) k, (k < d)%nat -> nth k (map f (seq 0 d)) 0 = f k.
Proof.
  intros d f k H. rewrite (nth_indep _ 0 (f 0%nat)) by (rewrite map_length, seq_length; exact H).
  rewrite (map_nth f), seq_nth by exact H. reflexivity.
Qed.

Lemma to_left_length : forall d Q l0 r0 x, length (to_left d Q l0 r0 x) = d.
Proof. intros. unfold to_left. rewrite map_length, seq_length. reflexivity. Qed.
Lemma to_right_length : forall d Q l0 r0 x, length (to_right d Q l0 r0 x) = d.
Proof. intros. unfold to_right. rewrite map_length, seq_length. reflexivity. Qed.
Lemma rotate_length : forall d Q v, length (rotate d Q v) = d.
Proof. intros. unfold rotate. rewrite map_length, seq_length. reflexivity. Qed.

Lemma there_and_back : forall d Q l0 r0 x, (2 <= d <= 3)%nat -> orthogonal d Q -> length x = d ->
  to_right d Q l0 r0 (to_left d Q l0 r0 x) = x.
Proof.
  intros d Q l0 r0 x Hd O L. apply list_by_nth; [rewrite to_right_length; symmetry; exact L|].
  rewrite to_right_length. intros i Hi. unfold to_right. rewrite nth_map_seq by exact Hi.
  rewrite (total_ext d _ (fun k => Q k i * total d (fun m => Q k m * (nth m x 0 - nth m r0 0))))
    by (intros k Hk; unfold to_left; rewrite nth_map_seq by exact Hk; ring).
  transitivity (nth i r0 0 + total d (fun m => total d (fun k => Q k i * Q k m) * (nth m x 0 - nth m r0 0))).
  - f_equal. two_or_three d; rewrite ?total_2, ?total_3; ring.
  - rewrite (total_ext d _ (fun m => kronecker i m * (nth m x 0 - nth m r0 0))) by (intros m Hm; rewrite O by assumption; reflexivity).
    rewrite (kronecker_total d i (fun m => nth m x 0 - nth m r0 0)) by assumption. ring.
Qed.

Lemma right_difference : forall d Q l0 r0 y y' i, (2 <= d <= 3)%nat -> (i < d)%nat ->
  nth i (to_right d Q l0 r0 y) 0 - nth i (to_right d Q l0 r0 y') 0 = total d (fun k => Q k i * (nth k y 0 - nth k y' 0)).
Proof.
  intros d Q l0 r0 y y' i Hd Hi. unfold to_right. rewrite !nth_map_seq by exact Hi. two_or_three d; rewrite ?total_2, ?total_3; ring.
Qed.

Lemma entry_bound : forall d Q k i, (2 <= d <= 3)%nat -> orthogonal d Q -> (k < d)%nat -> (i < d)%nat -> Rabs (Q k i) <= 1.
Proof.
  intros d Q k i Hd O Hk Hi. assert (E := O i i Hi Hi). unfold kronecker in E. destruct (Nat.eq_dec i i); [|lia].
  assert (P : Q k i * Q k i <= 1).
  { two_or_three d; rewrite ?total_2, ?total_3 in E; assert (A := Rle_0_sqr (Q 0%nat i)); assert (B := Rle_0_sqr (Q 1%nat i));
      assert (C := Rle_0_sqr (Q 2%nat i)); unfold Rsqr in *; enum 3%nat k; try lia; lra. }
  apply Rabs_le. split; nra.
Qed.

Lemma total_Rabs : forall d f, Rabs (total d f) <= total d (fun i => Rabs (f i)).
Proof.
  induction d; intros f; [rewrite !total_0, Rabs_R0; lra|]. rewrite !total_S. assert (T := Rabs_triang (total d f) (f d)). assert (I := IHd f). lra.
Qed.
Lemma total_nonneg : forall d f, (forall i, (i < d)%nat -> 0 <= f i) -> 0 <= total d f.
Proof. intros d f H. replace 0 with (total d (fun _ => 0)); [apply total_le, H|]. clear H. induction d; [reflexivity|rewrite total_S, IHd; ring]. Qed.

(** ** Derivatives *)
Lemma carried_derivatives : forall d Q l0 r0 u x g, (2 <= d <= 3)%nat -> orthogonal d Q -> length x = d ->
  has_derivatives u x g ->
  has_derivatives (carried_scalar d Q l0 r0 u) (to_left d Q l0 r0 x) (fun i => total d (fun k => Q i k * g k)).
Proof.
  intros d Q l0 r0 u x g Hd O L H eps He.
  assert (D3 : 0 < INR d <= 3) by (two_or_three d; cbn; lra).
  destruct (H (eps / INR d)) as [delta [Hdl B]]; [apply Rdiv_lt_0_compat; lra|].
  exists (delta / INR d). split; [apply Rdiv_lt_0_compat; lra|]. intros y [Ly Cy]. rewrite to_left_length in *.
  unfold carried_scalar. set (x' := to_left d Q l0 r0 x) in *.
  assert (Bk : to_right d Q l0 r0 x' = x) by (apply there_and_back; assumption).
  assert (Df : forall i, (i < d)%nat -> nth i (to_right d Q l0 r0 y) 0 - nth i x 0 = total d (fun k => Q k i * (nth k y 0 - nth k x' 0))).
  { intros i Hi. rewrite <- Bk. apply right_difference; assumption. }
  rewrite Bk. set (h := fun k => nth k y 0 - nth k x' 0).
  assert (Bd : forall i, (i < d)%nat -> Rabs (nth i (to_right d Q l0 r0 y) 0 - nth i x 0) <= total d (fun k => Rabs (h k))).
  { intros i Hi. rewrite Df by exact Hi. apply (Rle_trans _ _ _ (total_Rabs d _)). apply total_le. intros k Hk. rewrite Rabs_mult.
    assert (E := entry_bound d Q k i Hd O Hk Hi). assert (P := Rabs_pos (nth k y 0 - nth k x' 0)). unfold h. nra. }
  assert (Cl : close delta x (to_right d Q l0 r0 y)).
  { split; [rewrite to_right_length; symmetry; exact L|]. rewrite L. intros i Hi. apply (Rle_lt_trans _ _ _ (Bd i Hi)).
    apply (Rlt_le_trans _ (INR d * (delta / INR d))); [|apply Req_le; field; lra].
    two_or_three d; rewrite ?total_2, ?total_3; cbn [INR] in *; assert (C0 := Cy 0%nat ltac:(lia)); assert (C1 := Cy 1%nat ltac:(lia));
      try assert (C2 := Cy 2%nat ltac:(lia)); unfold h; lra. }
  assert (G := B _ Cl). rewrite L in G.
  replace (total d (fun i => total d (fun k => Q i k * g k) * (nth i y 0 - nth i x' 0)))
    with (total d (fun i => g i * (nth i (to_right d Q l0 r0 y) 0 - nth i x 0))).
  - apply (Rle_trans _ _ _ G).
    apply (Rle_trans _ (eps / INR d * (INR d * total d (fun k => Rabs (h k))))).
    + apply Rmult_le_compat_l; [apply Rlt_le, Rdiv_lt_0_compat; lra|].
      assert (B0 := Bd 0%nat ltac:(lia)). assert (B1 := Bd 1%nat ltac:(lia)).
      two_or_three d; try assert (B2 := Bd 2%nat ltac:(lia)); rewrite ?(total_2 (fun i => Rabs (nth i _ 0 - nth i x 0))), ?(total_3 (fun i => Rabs (nth i _ 0 - nth i x 0)));
        cbn [INR]; lra.
    + apply Req_le. unfold h. field. lra.
  - rewrite (total_ext d (fun i => g i * (nth i (to_right d Q l0 r0 y) 0 - nth i x 0)) (fun i => g i * total d (fun k => Q k i * h k)))
      by (intros i Hi; rewrite Df by exact Hi; reflexivity).
    unfold h. two_or_three d; rewrite ?total_2, ?total_3; ring.
Qed.

Lemma derivatives_ext : forall u u' x g g', (forall y, length y = length x -> u y = u' y) ->
  (forall i, (i < length x)%nat -> g i = g' i) -> has_derivatives u x g -> has_derivatives u' x g'.
Proof.
  intros u u' x g g' E F H eps He. destruct (H eps He) as [delta [P B]]. exists delta. split; [exact P|]. intros y C.
  rewrite <- !E by (first [reflexivity|apply C]). rewrite <- (total_ext (length x) (fun i => g i * (nth i y 0 - nth i x 0))) by (intros i Hi; rewrite F by exact Hi; reflexivity).
  apply B, C.
Qed.
Lemma total_add : forall d a b, total d (fun i => a i + b i) = total d a + total d b.
Proof. induction d; intros; [rewrite !total_0; ring|]. rewrite !total_S, IHd. ring. Qed.

Lemma derivatives_scal : forall c u x g, has_derivatives u x g -> has_derivatives (fun y => c * u y) x (fun i => c * g i).
Proof.
  intros c u x g H eps He. destruct (H (eps / (Rabs c + 1))) as [delta [P B]].
  - apply Rdiv_lt_0_compat; [exact He|]. assert (A := Rabs_pos c). lra.
  - exists delta. split; [exact P|]. intros y C. assert (B' := B y C).
    replace (c * u y - c * u x - total (length x) (fun i => c * g i * (nth i y 0 - nth i x 0)))
      with (c * (u y - u x - total (length x) (fun i => g i * (nth i y 0 - nth i x 0)))).
    + rewrite Rabs_mult. assert (A := Rabs_pos c).
      set (t := total (length x) (fun i => Rabs (nth i y 0 - nth i x 0))) in *.
      assert (T : 0 <= t) by (apply total_nonneg; intros; apply Rabs_pos).
      apply (Rle_trans _ (Rabs c * (eps / (Rabs c + 1) * t))); [apply Rmult_le_compat_l; assumption|].
      replace (eps * t) with ((Rabs c + 1) * (eps / (Rabs c + 1) * t)) by (field; lra).
      apply Rmult_le_compat_r; [|lra]. apply Rmult_le_pos; [|exact T]. apply Rlt_le, Rdiv_lt_0_compat; lra.
    + rewrite (total_ext (length x) (fun i => c * g i * (nth i y 0 - nth i x 0)) (fun i => (g i * (nth i y 0 - nth i x 0)) * c)) by (intros; ring).
      rewrite total_scal. ring.
Qed.
Lemma derivatives_add : forall u v x g h, has_derivatives u x g -> has_derivatives v x h ->
  has_derivatives (fun y => u y + v y) x (fun i => g i + h i).
Proof.
  intros u v x g h H K eps He. destruct (H (eps / 2) ltac:(lra)) as [d1 [P1 B1]]. destruct (K (eps / 2) ltac:(lra)) as [d2 [P2 B2]].
  exists (Rmin d1 d2). split; [apply Rmin_glb_lt; assumption|]. intros y [Ly C].
  assert (A1 := B1 y). assert (A2 := B2 y).
  specialize (A1 ltac:(split; [exact Ly|intros i Hi; apply (Rlt_le_trans _ _ _ (C i Hi)), Rmin_l])).
  specialize (A2 ltac:(split; [exact Ly|intros i Hi; apply (Rlt_le_trans _ _ _ (C i Hi)), Rmin_r])).
  set (a := u y - u x - total (length x) (fun i => g i * (nth i y 0 - nth i x 0))) in *.
  set (b := v y - v x - total (length x) (fun i => h i * (nth i y 0 - nth i x 0))) in *.
  replace (u y + v y - (u x + v x) - total (length x) (fun i => (g i + h i) * (nth i y 0 - nth i x 0))) with (a + b).
  - assert (T := Rabs_triang a b). lra.
  - unfold a, b. rewrite (total_ext (length x) (fun i => (g i + h i) * (nth i y 0 - nth i x 0)) (fun i => g i * (nth i y 0 - nth i x 0) + h i * (nth i y 0 - nth i x 0))) by (intros; ring).
    rewrite total_add. ring.
Qed.
Lemma derivatives_zero : forall x, has_derivatives (fun _ => 0) x (fun _ => 0).
Proof.
  intros x eps He. exists 1. split; [lra|]. intros y _.
  rewrite (total_ext (length x) (fun i => 0 * (nth i y 0 - nth i x 0)) (fun i => 0 * 0)) by (intros; ring). rewrite total_scal.
  replace (0 - 0 - _) with 0 by ring. rewrite Rabs_R0. apply Rmult_le_pos; [lra|]. apply total_nonneg. intros; apply Rabs_pos.
Qed.
Lemma derivatives_combine : forall n (c : nat -> R) (f : nat -> point -> R) x g, (forall m, (m < n)%nat -> has_derivatives (f m) x (g m)) ->
  has_derivatives (fun y => total n (fun m => c m * f m y)) x (fun i => total n (fun m => c m * g m i)).
Proof.
  induction n; intros c f x g H.
  - apply (derivatives_ext (fun _ => 0) _ x (fun _ => 0)); [intros; reflexivity|intros; reflexivity|apply derivatives_zero].
  - apply (derivatives_ext (fun y => total n (fun m => c m * f m y) + c n * f n y) _ x (fun i => total n (fun m => c m * g m i) + c n * g n i));
      [intros; rewrite total_S; reflexivity|intros; rewrite total_S; reflexivity|].
    apply derivatives_add; [apply IHn; intros; apply H; lia|apply derivatives_scal, H; lia].
Qed.

Lemma carried_components : forall d Q l0 r0 u x D, (2 <= d <= 3)%nat -> orthogonal d Q -> length x = d ->
  has_components u x D ->
  has_components (carried_vector d Q l0 r0 u) (to_left d Q l0 r0 x) (fun k i => total d (fun m => Q k m * total d (fun n => Q i n * D m n))).
Proof.
  intros d Q l0 r0 u x D Hd O L H k Hk. rewrite to_left_length in Hk.
  apply (derivatives_ext (fun y => total d (fun m => Q k m * nth m (u (to_right d Q l0 r0 y)) 0)) _ _ (fun i => total d (fun m => Q k m * total d (fun n => Q i n * D m n)))).
  - intros y _. unfold carried_vector, rotate. rewrite nth_map_seq by exact Hk. reflexivity.
  - intros; reflexivity.
  - apply derivatives_combine. intros m Hm. apply (carried_derivatives d Q l0 r0 (fun y => nth m (u y) 0) x (D m) Hd O L).
    apply H. rewrite L. exact Hm.
Qed.

(** ** Transformed values *)
Definition rotation_data (d : nat) (Q : nat -> nat -> R) : transformation_data :=
  TransformationData (matrix_of Q d) (matrix_of (transposed Q) d) 1.

Lemma rotate_product : forall d Q v, rotate d Q v = product d Q v.
Proof. reflexivity. Qed.
Lemma divide_1 : forall v, vdivide v 1 = v.
Proof. induction v; cbn; [reflexivity|]. unfold vdivide in IHv. rewrite IHv. f_equal. field. Qed.

Lemma solve_rotation : forall d Q v, (2 <= d <= 3)%nat -> is_rotation d Q -> length v = d ->
  solve (matrix_of (transposed Q) d) v = Some (rotate d Q v).
Proof.
  intros d Q v Hd Rot L.
  assert (N : det d (transposed Q) <> 0) by (rewrite det_transposed by lia; assert (D := proj2 Rot); unfold det; unfold determinant_of in D; rewrite D; lra).
  rewrite <- (solve_product d (transposed Q) (rotate d Q v)) by (try lia; try assumption; apply rotate_length). f_equal.
  apply list_by_nth; [unfold product; rewrite map_length, seq_length; exact L|]. rewrite L. intros i Hi.
  rewrite nth_product by exact Hi.
  rewrite (total_ext d _ (fun j => Q j i * total d (fun k => Q j k * nth k v 0))) by (intros j Hj; unfold rotate; rewrite nth_map_seq by exact Hj; reflexivity).
  transitivity (total d (fun k => total d (fun j => Q j i * Q j k) * nth k v 0)).
  - rewrite (total_ext d _ (fun k => kronecker i k * nth k v 0)) by (intros k Hk; rewrite (proj1 Rot) by assumption; reflexivity).
    rewrite (kronecker_total d i (fun k => nth k v 0)) by assumption. reflexivity.
  - two_or_three d; rewrite ?total_2, ?total_3; ring.
Qed.
Lemma piola_rotation : forall d Q v, (2 <= d <= 3)%nat -> length v = d -> piola v (rotation_data d Q) = Some (rotate d Q v).
Proof.
  intros d Q v Hd L. unfold piola, rotation_data. cbn [getJacobian getJacobianDet]. rewrite mat_vec_product by (try lia; exact L).
  rewrite divide_1. reflexivity.
Qed.

Lemma gradient_carried : forall d Q l0 r0 u x g, (2 <= d <= 3)%nat -> is_rotation d Q -> length x = d -> is_gradient_of u x g ->
  exists g', transformDeriv H1Conforming g (rotation_data d Q) = Some g' /\
    is_gradient_of (carried_scalar d Q l0 r0 u) (to_left d Q l0 r0 x) g'.
Proof.
  intros d Q l0 r0 u x g Hd Rot L [Lg H]. exists (rotate d Q g). split.
  - cbn [transformDeriv rotation_data getTransposeJacobian]. apply solve_rotation; [exact Hd|exact Rot|congruence].
  - split; [rewrite rotate_length, to_left_length; reflexivity|].
    apply (derivatives_ext (carried_scalar d Q l0 r0 u) _ _ (fun i => total d (fun k => Q i k * nth k g 0))).
    + reflexivity.
    + rewrite to_left_length. intros i Hi. unfold rotate. rewrite nth_map_seq by exact Hi. reflexivity.
    + apply carried_derivatives; try assumption. apply Rot.
Qed.

Lemma rotate_cof : forall Q v, is_rotation 3 Q -> rotate 3 Q v = rotate 3 (cof Q) v.
Proof.
  intros Q v Rot. unfold rotate. apply map_ext_in. intros i Hi. apply in_seq in Hi. apply total_ext. intros k Hk.
  rewrite (cofactors Q Rot) by lia. reflexivity.
Qed.

Lemma curl_carried : forall d Q l0 r0 u x c, (2 <= d <= 3)%nat -> is_rotation d Q -> length x = d -> is_curl_of u x c ->
  exists c', transformCurl HCurlConforming c (rotation_data d Q) = Some c' /\
    is_curl_of (carried_vector d Q l0 r0 u) (to_left d Q l0 r0 x) c'.
Proof.
  intros d Q l0 r0 u x c Hd Rot L (D & H & C). assert (K := carried_components d Q l0 r0 u x D Hd (proj1 Rot) L H).
  destruct C as [[L2 ->]|[L3 ->]].
  - assert (E2 : d = 2%nat) by congruence. rewrite E2 in *. clear E2. unfold transformCurl, rotation_data. cbn [getJacobian nrows matrix_of Nat.eqb getJacobianDet].
    rewrite divide_1. eexists. split; [reflexivity|]. eexists. split; [exact K|]. left. split; [apply to_left_length|].
    f_equal. rewrite !total_2. destruct (quarter Q Rot) as [E F]. assert (Dt := proj2 Rot). unfold determinant_of in Dt. cbn in Dt. rewrite E, F in *.
    transitivity ((D 1%nat 0%nat - D 0%nat 1%nat) * 1); [ring|]. rewrite <- Dt. ring.
  - assert (E3 : d = 3%nat) by congruence. rewrite E3 in *. clear E3. unfold transformCurl. cbn [rotation_data getJacobian nrows matrix_of Nat.eqb].
    change (TransformationData (matrix_of Q 3) (matrix_of (transposed Q) 3) 1) with (rotation_data 3 Q).
    rewrite piola_rotation by (try lia; reflexivity). eexists. split; [reflexivity|]. eexists. split; [exact K|]. right. split; [apply to_left_length|].
    rewrite (rotate_cof Q _ Rot). unfold rotate. cbn [seq map]. rewrite !total_3. cbn [nth]. unfold cof. cbn [Nat.add Nat.modulo Nat.divmod fst snd Nat.sub].
    f_equal; [ring|f_equal; [ring|f_equal; ring]].
Qed.

Lemma divergence_carried : forall d Q l0 r0 u x c, (2 <= d <= 3)%nat -> is_rotation d Q -> length x = d -> is_divergence_of u x c ->
  exists c', transformDiv HDivConforming c (rotation_data d Q) = Some c' /\
    is_divergence_of (carried_vector d Q l0 r0 u) (to_left d Q l0 r0 x) c'.
Proof.
  intros d Q l0 r0 u x c Hd Rot L (D & H & ->). assert (K := carried_components d Q l0 r0 u x D Hd (proj1 Rot) L H).
  eexists. split; [reflexivity|]. eexists. split; [exact K|]. cbn [rotation_data getJacobianDet]. rewrite to_left_length, L.
  transitivity (total d (fun m => total d (fun n => total d (fun i => Q i m * Q i n) * D m n))).
  - unfold Rdiv. rewrite Rinv_1, Rmult_1_r. apply total_ext. intros m Hm.
    rewrite (total_ext d _ (fun n => kronecker m n * D m n)) by (intros n Hn; rewrite (proj1 Rot) by assumption; reflexivity).
    rewrite (kronecker_total d m (fun n => D m n)) by assumption. reflexivity.
  - two_or_three d; rewrite !total_2 || rewrite !total_3; ring.
Qed.

Lemma vector_carried : forall d Q v t, (2 <= d <= 3)%nat -> is_rotation d Q -> length v = d -> t <> H1Conforming ->
  transform_vector t v (rotation_data d Q) = Some (rotate d Q v).
Proof.
  intros d Q v t Hd Rot L N. destruct t; [contradiction| |].
  - cbn [transform_vector rotation_data getTransposeJacobian]. apply solve_rotation; assumption.
  - cbn [transform_vector]. apply piola_rotation; assumption.
Qed.

(** ** Given the rotation *)
Lemma rotation_congruent : forall d Q lp rp, (2 <= d <= 3)%nat -> is_rotation d Q ->
  (forall i, (i < d)%nat -> to_left d Q (nth 0 lp []) (nth 0 rp []) (nth i rp []) = nth i lp []) -> congruent d lp rp.
Proof.
  intros d Q lp rp Hd Rot M i j Hi Hj. unfold distance_squared, point in *. rewrite <- (M i Hi), <- (M j Hj).
  rewrite (total_ext d _ (fun k => total d (fun m => Q k m * (nth m (nth i rp []) 0 - nth m (nth j rp []) 0)) *
    total d (fun n => Q k n * (nth n (nth i rp []) 0 - nth n (nth j rp []) 0)))).
  - set (h := fun m => nth m (nth i rp []) 0 - nth m (nth j rp []) 0).
    transitivity (total d (fun m => total d (fun n => total d (fun k => Q k m * Q k n) * h n) * h m)).
    + unfold h. two_or_three d; rewrite !total_2 || rewrite !total_3; ring.
    + apply total_ext. intros m Hm.
      rewrite (total_ext d _ (fun n => kronecker m n * h n)) by (intros n Hn; rewrite (proj1 Rot) by assumption; reflexivity).
      rewrite (kronecker_total d m h) by assumption. reflexivity.
  - intros k Hk. unfold to_left. rewrite !nth_map_seq by exact Hk.
    replace (nth k (nth 0 lp []) 0 + total d (fun k0 => Q k k0 * (nth k0 (nth i rp []) 0 - nth k0 (nth 0 rp []) 0)) -
      (nth k (nth 0 lp []) 0 + total d (fun k0 => Q k k0 * (nth k0 (nth j rp []) 0 - nth k0 (nth 0 rp []) 0))))
      with (total d (fun m => Q k m * (nth m (nth i rp []) 0 - nth m (nth j rp []) 0))); [reflexivity|].
    two_or_three d; rewrite !total_2 || rewrite !total_3; ring.
Qed.

(** the points determine the rotation *)
Lemma rotation_dirs : forall d Q lp rp, (2 <= d <= 3)%nat -> is_rotation d Q ->
  (forall i, (i < d)%nat -> to_left d Q (nth 0 lp []) (nth 0 rp []) (nth i rp []) = nth i lp []) ->
  forall i j, (i < d)%nat -> (j < d)%nat -> dirs d lp i j = total d (fun k => Q j k * dirs d rp i k).
Proof.
  intros d Q lp rp Hd Rot M.
  assert (Dir : forall i j, (i < d - 1)%nat -> (j < d)%nat -> dir lp i j = total d (fun k => Q j k * dir rp i k)).
  { intros i j Hi Hj. unfold dir at 1, coord. unfold point in *. rewrite <- (M (i + 1)%nat) by lia. unfold to_left. rewrite nth_map_seq by exact Hj.
    unfold dir, coord, point. ring. }
  intros i j Hi Hj. unfold dirs. destruct (i <? d - 1)%nat eqn:B; [apply Nat.ltb_lt in B; apply Dir; assumption|].
  two_or_three d.
  - rewrite total_2. destruct (quarter Q Rot) as [E F].
    enum 2%nat j; try lia; cbn [wedge]; rewrite !Dir, !total_2 by (cbn; lia); rewrite E, F; ring.
  - rewrite (total_ext 3 _ (fun k => cof Q j k * wedge 3 rp k)) by (intros k Hk; rewrite (cofactors Q Rot) by assumption; reflexivity).
    rewrite total_3. unfold cof.
    enum 3%nat j; try lia; cbn [wedge Nat.add Nat.modulo Nat.divmod fst snd Nat.sub]; rewrite !Dir, !total_3 by (cbn; lia); ring.
Qed.

Lemma rotation_unique : forall d Q Q' lp rp, (2 <= d <= 3)%nat -> is_rotation d Q -> is_rotation d Q' ->
  det d (dirs d rp) <> 0 ->
  (forall i, (i < d)%nat -> to_left d Q (nth 0 lp []) (nth 0 rp []) (nth i rp []) = nth i lp []) ->
  (forall i, (i < d)%nat -> to_left d Q' (nth 0 lp []) (nth 0 rp []) (nth i rp []) = nth i lp []) ->
  forall i j, (i < d)%nat -> (j < d)%nat -> Q i j = Q' i j.
Proof.
  intros d Q Q' lp rp Hd Rot Rot' N M M' i j Hi Hj.
  refine (injective d (dirs d rp) (fun k => Q i k) (fun k => Q' i k) Hd N _ j Hj).
  intros k Hk. rewrite (total_ext d _ (fun m => Q i m * dirs d rp k m)) by (intros; ring).
  rewrite (total_ext d (fun m => dirs d rp k m * Q' i m) (fun m => Q' i m * dirs d rp k m)) by (intros; ring).
  rewrite <- (rotation_dirs d Q lp rp Hd Rot M k i Hk Hi). apply (rotation_dirs d Q' lp rp Hd Rot' M' k i Hk Hi).
Qed.
