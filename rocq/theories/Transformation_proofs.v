From Coq Require Import List Arith Bool Lia Permutation Reals Lra Field.
From Verif Require Import Loop_model Matrix_model Matrix_spec Determinant_model Determinant_spec Determinant_proofs
  Derivative RefGeometry_model RefGeometry_spec RefGeometry_proofs Curvilinear_model PhysMapping_model PhysMapping_spec
  PhysMapping_proofs PhysInverse_proofs Transformation_model Transformation_spec.
Import ListNotations.
Local Open Scope R_scope.

(** ** sums *)
Lemma sum_app : forall l l', sum (l ++ l') = sum l + sum l'.
Proof. unfold sum. induction l; intros; cbn; [ring|rewrite IHl; ring]. Qed.
Lemma total_S : forall d a, total (S d) a = total d a + a d.
Proof. intros. unfold total. rewrite seq_S, map_app, sum_app. cbn. ring. Qed.
Lemma total_0 : forall a, total 0 a = 0.
Proof. reflexivity. Qed.
Lemma total_ext : forall d a b, (forall i, (i < d)%nat -> a i = b i) -> total d a = total d b.
Proof. induction d; intros a b H; [reflexivity|]. rewrite !total_S, (IHd a b), (H d) by (intros; try apply H; lia). reflexivity. Qed.
Lemma total_le : forall d a b, (forall i, (i < d)%nat -> a i <= b i) -> total d a <= total d b.
Proof.
  induction d; intros a b H; [rewrite !total_0; lra|]. rewrite !total_S.
  assert (total d a <= total d b) by (apply IHd; intros; apply H; lia). assert (a d <= b d) by (apply H; lia). lra.
Qed.
Lemma total_scal : forall d a c, total d (fun i => a i * c) = total d a * c.
Proof. induction d; intros; [rewrite !total_0; ring|]. rewrite !total_S, IHd. ring. Qed.
Lemma D_total : forall d (f : nat -> R -> R) x l, (forall i, (i < d)%nat -> derivable_pt_lim (f i) x (l i)) ->
  derivable_pt_lim (fun t => total d (fun i => f i t)) x (total d l).
Proof.
  induction d; intros f x l H.
  - rewrite total_0. apply (derivable_pt_lim_ext (fun _ => 0)); [reflexivity|apply D_const].
  - rewrite total_S. apply (derivable_pt_lim_ext (fun t => total d (fun i => f i t) + f d t)).
    + intros t. rewrite total_S. reflexivity.
    + apply (D_plus (fun t => total d (fun i => f i t)) (f d)); [apply IHd; intros; apply H; lia|apply H; lia].
Qed.

(** ** the chain rule along a curve *)
Lemma common_delta : forall d (P : nat -> R -> Prop), (forall i e e', P i e -> 0 < e' <= e -> P i e') ->
  (forall i, (i < d)%nat -> exists e, 0 < e /\ P i e) -> exists e, 0 < e /\ forall i, (i < d)%nat -> P i e.
Proof.
  induction d; intros P M H.
  - exists 1. split; [lra|intros; lia].
  - destruct (IHd P M) as (e & E & A); [intros; apply H; lia|]. destruct (H d) as (e' & E' & A'); [lia|].
    exists (Rmin e e'). assert (0 < Rmin e e') by (apply Rmin_glb_lt; assumption).
    split; [assumption|]. intros i Hi. destruct (Nat.eq_dec i d) as [->|N].
    + apply (M d e'); [assumption|split; [assumption|apply Rmin_r]].
    + apply (M i e); [apply A; lia|split; [assumption|apply Rmin_l]].
Qed.

Lemma increment_bound : forall f x l, derivable_pt_lim f x l ->
  exists e, 0 < e /\ forall h, Rabs h < e -> Rabs (f (x + h) - f x) <= (Rabs l + 1) * Rabs h.
Proof.
  intros f x l H. destruct (H 1 Rlt_0_1) as [e E]. exists e. split; [apply cond_pos|].
  intros h Hh. destruct (Req_EM_T h 0) as [->|N].
  - rewrite Rplus_0_r. replace (f x - f x) with 0 by ring. rewrite Rabs_R0. lra.
  - specialize (E h N Hh).
    replace (f (x + h) - f x) with (((f (x + h) - f x) / h - l) * h + l * h) by (field; exact N).
    eapply Rle_trans; [apply Rabs_triang|]. rewrite !Rabs_mult.
    assert (0 < Rabs h) by (apply Rabs_pos_lt; exact N).
    assert (Rabs ((f (x + h) - f x) / h - l) * Rabs h <= 1 * Rabs h) by (apply Rmult_le_compat_r; lra). lra.
Qed.

Lemma chain : forall u x g (c : R -> point) t0 l,
  has_derivatives u x g -> c t0 = x -> (forall t, length (c t) = length x) ->
  (forall i, (i < length x)%nat -> derivable_pt_lim (fun t => nth i (c t) 0) t0 (l i)) ->
  derivable_pt_lim (fun t => u (c t)) t0 (total (length x) (fun i => g i * l i)).
Proof.
  intros u x g c t0 l H E L D. set (d := length x) in *.
  set (lin := fun t => total d (fun i => g i * (nth i (c t) 0 - nth i x 0))).
  assert (Dlin : derivable_pt_lim lin t0 (total d (fun i => g i * l i))).
  { apply (D_total d (fun i t => g i * (nth i (c t) 0 - nth i x 0))). intros i Hi.
    eapply D_eq; [apply (D_mult (fun _ => g i)); [apply D_const|apply (D_minus (fun t => nth i (c t) 0)); [apply D, Hi|apply D_const]]|].
    cbv beta. ring. }
  assert (Drest : derivable_pt_lim (fun t => u (c t) - u x - lin t) t0 0).
  { intros eps Heps.
    set (M := total d (fun i => Rabs (l i) + 1)).
    assert (M0 : 0 <= M).
    { unfold M. replace 0 with (total d (fun _ => 0)).
      - apply total_le. intros. assert (A := Rabs_pos (l i)). lra.
      - clear. induction d; [reflexivity|rewrite total_S, IHd; ring]. }
    assert (E1 : 0 < eps / 2 / (M + 1)) by (apply Rdiv_lt_0_compat; lra).
    destruct (H _ E1) as (delta & Hdelta & B).
    destruct (common_delta d (fun i e => forall h, Rabs h < e ->
        Rabs (nth i (c (t0 + h)) 0 - nth i x 0) <= (Rabs (l i) + 1) * Rabs h /\ Rabs (nth i (c (t0 + h)) 0 - nth i x 0) < delta))
      as (e & He & A).
    { intros i e e' P [_ Le] h Hh. apply P. lra. }
    { intros i Hi. destruct (increment_bound _ _ _ (D i Hi)) as (e & He & A). cbv beta in A. rewrite E in A.
      assert (P : 0 < Rabs (l i) + 1) by (assert (A' := Rabs_pos (l i)); lra).
      assert (Q : 0 < delta / (Rabs (l i) + 1)) by (apply Rdiv_lt_0_compat; assumption).
      exists (Rmin e (delta / (Rabs (l i) + 1))). split; [apply Rmin_glb_lt; assumption|].
      intros h Hh. assert (A1 := Rmin_l e (delta / (Rabs (l i) + 1))). assert (A2 := Rmin_r e (delta / (Rabs (l i) + 1))).
      split; [apply A; lra|]. eapply Rle_lt_trans; [apply A; lra|].
      apply (Rlt_le_trans _ ((Rabs (l i) + 1) * (delta / (Rabs (l i) + 1)))); [apply Rmult_lt_compat_l; lra|].
      right. field. lra. }
    exists (mkposreal e He). intros h Nh Hh. cbn in Hh. cbv beta.
    assert (L0 : lin t0 = 0).
    { unfold lin. rewrite E. clear. induction d; [reflexivity|rewrite total_S, IHd; ring]. }
    rewrite L0, E. replace (u x - u x - 0) with 0 by ring. rewrite Rminus_0_r, Rminus_0_r.
    assert (Hp : 0 < Rabs h) by (apply Rabs_pos_lt, Nh).
    unfold Rdiv. rewrite Rabs_mult, Rabs_inv. fold d in B.
    apply (Rmult_lt_reg_r (Rabs h)); [exact Hp|]. rewrite Rmult_assoc, Rinv_l, Rmult_1_r by lra.
    eapply Rle_lt_trans; [apply (B (c (t0 + h)))|].
    - split; [apply L|]. fold d. intros i Hi. apply (A i Hi h Hh).
    - assert (T : total d (fun i => Rabs (nth i (c (t0 + h)) 0 - nth i x 0)) <= M * Rabs h).
      { unfold M. rewrite <- total_scal. apply total_le. intros i Hi. apply (A i Hi h Hh). }
      apply (Rle_lt_trans _ (eps / 2 / (M + 1) * (M * Rabs h))); [apply Rmult_le_compat_l; [lra|exact T]|].
      assert (Q : M / (M + 1) <= 1) by (apply (Rmult_le_reg_r (M + 1)); [lra|unfold Rdiv; rewrite Rmult_assoc, Rinv_l; lra]).
      replace (eps / 2 / (M + 1) * (M * Rabs h)) with (M / (M + 1) * (eps / 2 * Rabs h)) by (field; lra).
      assert (0 < eps / 2 * Rabs h) by (apply Rmult_lt_0_compat; lra).
      assert (M / (M + 1) * (eps / 2 * Rabs h) <= 1 * (eps / 2 * Rabs h)) by (apply Rmult_le_compat_r; lra).
      lra. }
  eapply D_eq; [apply (derivable_pt_lim_ext (fun t => u x + (u (c t) - u x - lin t) + lin t));
    [intros t; ring|apply (D_plus (fun t => u x + (u (c t) - u x - lin t))); [apply (D_plus (fun _ => u x)); [apply D_const|exact Drest]|exact Dlin]]|].
  ring.
Qed.

(** ** the entries of the Jacobian *)
Definition entry (g : geometry) (nodes : list point) (p : point) (i j : nat) : R :=
  match phys_jacobian g nodes p with
  | Some J => match mget J i j with Some x => x | None => 0 end
  | None => 0
  end.

Lemma jacobian_matrix : forall g nodes p J, has_mapping g -> are_nodes_of g nodes ->
  length p = dimension (base g) -> phys_jacobian g nodes p = Some J -> J = matrix_of (entry g nodes p) (dimension (base g)).
Proof.
  intros g nodes p J G H L E. unfold entry. rewrite E.
  each_geometry g G; cbn [base dimension] in L; coordinates_of H; cbn -[Rlt_dec Req_EM_T pow] in E;
    try (match type of E with (if ?b then _ else _) = _ => destruct b; [discriminate E|] end);
    injection E as <-; reflexivity.
Qed.

Definition pyramid_entry (c : list R) (i : nat) (p : point) : R :=
  let x := nth 0 p 0 in let y := nth 1 p 0 in let z := nth 2 p 0 in
  match i with
  | O => dot [0; 1/4 * (-1 + y + y * z / (1 - z)); 1/4 * (1 - y - y * z / (1 - z)); 1/4 * (-1 - y - y * z / (1 - z)); 1/4 * (1 + y + y * z / (1 - z))] c
  | S O => dot [0; 1/4 * (-1 + x + x * z / (1 - z)); 1/4 * (-1 - x - x * z / (1 - z)); 1/4 * (1 - x - x * z / (1 - z)); 1/4 * (1 + x + x * z / (1 - z))] c
  | _ => dot [1; 1/4 * (-1 + x * y / ((1 - z) * (1 - z))); 1/4 * (-1 - x * y / ((1 - z) * (1 - z))); 1/4 * (-1 - x * y / ((1 - z) * (1 - z))); 1/4 * (-1 + x * y / ((1 - z) * (1 - z)))] c
  end.
Lemma pyramid_entries : forall nodes p k i, are_nodes_of (Base Pyramid) nodes -> length p = 3%nat -> regular (Base Pyramid) p ->
  (k < 3)%nat -> (i < 3)%nat ->
  entry (Base Pyramid) nodes p k i = pyramid_entry (map (fun n => nth k n 0) nodes) i p.
Proof.
  intros nodes p k i H L Rg Hk Hi. destruct (Rg eq_refl) as [Nz B]. clear Rg. coordinates_of H. cbn [nth] in Nz, B.
  unfold entry. cbn -[Rlt_dec Req_EM_T pow Rdiv].
  destruct (Rlt_dec _ _) as [F|_]; [exfalso; lra|].
  match goal with |- context[Req_EM_T ?a 0] => destruct (Req_EM_T a 0) as [F|_]; [exfalso; lra|] end.
  enum 3%nat k; try lia; enum 3%nat i; try lia; clear Hk Hi; cbn -[Rdiv]; ring.
Qed.
Lemma pyramid_second : forall c p i j, length c = 5%nat -> length p = 3%nat -> (i < 3)%nat -> (j < 3)%nat -> nth 2 p 0 <> 1 ->
  exists h,
    derivable_pt_lim (fun t => pyramid_entry c i (with_coordinate p j t)) (nth j p 0) h /\
    derivable_pt_lim (fun t => pyramid_entry c j (with_coordinate p i t)) (nth i p 0) h.
Proof.
  intros c p i j Lc Lp Hi Hj Nz. points_of_dim. cbn [nth] in Nz.
  assert (Nd : 1 - r1 <> 0) by lra.
  assert (Nd2 : (1 - r1) * (1 - r1) <> 0) by (apply Rmult_integral_contrapositive_currified; assumption).
  enum 3%nat j; try lia; enum 3%nat i; try lia; clear Hi Hj; cbn -[Rdiv];
    (eexists; split; [eapply D_eq; [repeat derive_rule; try assumption|cbv beta; reflexivity]
                     |eapply D_eq; [repeat derive_rule; try assumption|cbv beta; field; assumption]]).
Qed.
Lemma regular_near : forall p j, length p = 3%nat -> (j < 3)%nat -> regular (Base Pyramid) p ->
  exists eps, 0 < eps /\ forall t, Rabs (t - nth j p 0) < eps -> regular (Base Pyramid) (with_coordinate p j t).
Proof.
  intros p j Lp Hj Rg. destruct (Rg eq_refl) as [Nz B]. clear Rg. points_of_dim. rename r into x, r0 into y, r1 into z. cbn [nth] in Nz, B.
  set (eps := Rmin (Rabs (z - 1)) (Rabs (z - 1) + Rabs x + Rabs y - / 10 ^ 14)).
  assert (He : 0 < eps) by (unfold eps; apply Rmin_glb_lt; [apply Rabs_pos_lt; lra|lra]).
  assert (E1 := Rmin_l (Rabs (z - 1)) (Rabs (z - 1) + Rabs x + Rabs y - / 10 ^ 14)).
  assert (E2 := Rmin_r (Rabs (z - 1)) (Rabs (z - 1) + Rabs x + Rabs y - / 10 ^ 14)). fold eps in E1, E2.
  exists eps. split; [exact He|]. intros t Ht _. enum 3%nat j; try lia; clear Hj; cbn [nth with_coordinate firstn skipn app] in *.
  - split; [exact Nz|]. assert (T := Rabs_triang_inv x (x - t)). replace (x - (x - t)) with t in T by ring.
    rewrite (Rabs_minus_sym t x) in Ht. lra.
  - split; [exact Nz|]. assert (T := Rabs_triang_inv y (y - t)). replace (y - (y - t)) with t in T by ring.
    rewrite (Rabs_minus_sym t y) in Ht. lra.
  - assert (T := Rabs_triang_inv (z - 1) (z - t)). replace (z - 1 - (z - t)) with (t - 1) in T by ring.
    rewrite (Rabs_minus_sym t z) in Ht. split; [|lra]. intros ->. replace (1 - 1) with 0 in T by ring. rewrite Rabs_R0 in T. lra.
Qed.
Lemma pyramid_dec : forall g, g = Base Pyramid \/ g <> Base Pyramid.
Proof. intros [s|s o]; [destruct s; try (right; discriminate); left; reflexivity|right; discriminate]. Qed.
Lemma with_coordinate_length : forall p i t, (i < length p)%nat -> length (with_coordinate p i t) = length p.
Proof.
  intros p i t H. unfold with_coordinate. rewrite app_length. cbn [length]. rewrite firstn_length, skipn_length. lia.
Qed.

Lemma entry_derivative : forall g nodes p i j, has_mapping g -> regular g p -> are_nodes_of g nodes ->
  length p = dimension (base g) -> (i < dimension (base g))%nat -> (j < dimension (base g))%nat ->
  derivable_pt_lim (fun t => coordinate (phys_transform g nodes (with_coordinate p j t)) i) (nth j p 0) (entry g nodes p i j).
Proof.
  intros g nodes p i j G GP H L Hi Hj.
  assert (J : exists J, phys_jacobian g nodes p = Some J /\
    is_jacobian (phys_transform g nodes) (dimension (base g)) (dimension (base g)) p J).
  { destruct (pyramid_dec g) as [->|N]; [|apply mapping_jacobian; assumption].
    destruct (GP eq_refl) as [Nz B]. cbn [base dimension] in L |- *. points_of_dim. cbn [nth] in Nz, B.
    apply pyramid_jacobian_ok; [exact H|right; split; [exact Nz|lra]]. }
  destruct J as (J & EJ & e & M & D).
  unfold entry. rewrite EJ. destruct M as (_ & _ & _ & M). rewrite M.
  apply Nat.ltb_lt in Hi as Hi', Hj as Hj'. rewrite Hi', Hj'. cbn [andb]. apply D; assumption.
Qed.

Lemma second_derivatives : forall g nodes p k i j, has_mapping g -> regular g p -> are_nodes_of g nodes ->
  length p = dimension (base g) -> (k < dimension (base g))%nat -> (i < dimension (base g))%nat -> (j < dimension (base g))%nat ->
  exists h,
    derivable_pt_lim (fun t => entry g nodes (with_coordinate p j t) k i) (nth j p 0) h /\
    derivable_pt_lim (fun t => entry g nodes (with_coordinate p i t) k j) (nth i p 0) h.
Proof.
  intros g nodes p k i j G GP H L Hk Hi Hj. destruct (pyramid_dec g) as [->|N].
  { cbn [base dimension] in *. assert (Ln : length nodes = 5%nat) by apply H.
    destruct (pyramid_second (map (fun n => nth k n 0) nodes) p i j) as (h & D1 & D2); try assumption.
    { rewrite map_length. exact Ln. } { apply GP; reflexivity. }
    exists h. split.
    - destruct (regular_near p j L Hj GP) as (eps & He & A). refine (D_local _ _ _ _ eps He _ D1). intros t Ht.
      apply pyramid_entries; try assumption; [rewrite with_coordinate_length; lia|apply A, Ht].
    - destruct (regular_near p i L Hi GP) as (eps & He & A). refine (D_local _ _ _ _ eps He _ D2). intros t Ht.
      apply pyramid_entries; try assumption; [rewrite with_coordinate_length; lia|apply A, Ht]. }
  clear GP. each_geometry g G; try (exfalso; apply N; reflexivity); clear N; cbn [base dimension] in L, Hk, Hi, Hj; coordinates_of H;
    enum 4%nat k; try lia; enum 4%nat i; try lia; enum 4%nat j; try lia; clear Hk Hi Hj;
    cbn; unfold line_mid, line_slope;
    (eexists; split; [eapply D_eq; [repeat derive_rule|cbv beta; reflexivity]|derive_with ltac:(try ring; try field)]).
Qed.

(** ** the data and the linear system *)
Definition transposed (e : nat -> nat -> R) (i j : nat) : R := e j i.
Definition det (d : nat) (e : nat -> nat -> R) : R := leibniz 0 1 Rplus Rmult Ropp d e.
Ltac small_dim d := destruct d as [|[|[|[|[|d]]]]]; try (exfalso; lia).

Lemma dimension_small : forall g, has_mapping g -> (1 <= dimension (base g) <= 4)%nat.
Proof. intros g G. each_geometry g G; cbn; lia. Qed.

Lemma det_transposed : forall d e, (1 <= d <= 4)%nat -> det d (transposed e) = det d e.
Proof. intros d e Hd. small_dim d; cbn; unfold transposed; ring. Qed.

Lemma setJacobian_matrix : forall d e, (1 <= d <= 4)%nat ->
  setJacobian (matrix_of e d) = Some (TransformationData (matrix_of e d) (matrix_of (transposed e) d) (det d e)).
Proof.
  intros d e Hd. unfold setJacobian. rewrite rdet_matrix_of by lia. fold (det d e).
  replace (transpose 0 (matrix_of e d)) with (Some (matrix_of (transposed e) d)); [reflexivity|].
  small_dim d; reflexivity.
Qed.

Definition product (d : nat) (A : nat -> nat -> R) (y : list R) : list R :=
  map (fun i => total d (fun j => A i j * nth j y 0)) (seq 0 d).

Lemma solve_product : forall d A y, (1 <= d <= 4)%nat -> det d A <> 0 -> length y = d ->
  solve (matrix_of A d) (product d A y) = Some y.
Proof.
  intros d A y Hd I L. unfold solve. rewrite rdet_matrix_of by lia. fold (det d A).
  destruct (Req_EM_T _ 0) as [E|_]; [contradiction|].
  small_dim d; points_of_dim; cbn -[det Rdiv]; point_eq ltac:(apply quotient; [exact I|cbn; ring]).
Qed.

Ltac list_eq tac := repeat (match goal with |- _ :: _ = _ :: _ => apply (f_equal2 cons); [tac|] end); try reflexivity.
Lemma solve_solution : forall d A b y, (1 <= d <= 4)%nat -> det d A <> 0 -> length b = d ->
  solve (matrix_of A d) b = Some y -> length y = d /\ b = product d A y.
Proof.
  intros d A b y Hd I L. unfold solve. rewrite rdet_matrix_of by lia. fold (det d A).
  destruct (Req_EM_T _ 0) as [E|_]; [contradiction|].
  small_dim d; points_of_dim; cbn -[det Rdiv]; intros [= <-]; (split; [reflexivity|]);
    unfold product; cbn -[det Rdiv];
    list_eq ltac:(field_simplify_eq; [unfold det; cbn; ring|exact I]).
Qed.

(** ** the data in the points of an element *)
Definition image (g : geometry) (nodes : list point) (q : point) : point :=
  match phys_transform g nodes q with Some x => x | None => [] end.

Lemma with_coordinate_same : forall p i, (i < length p)%nat -> with_coordinate p i (nth i p 0) = p.
Proof.
  intros p i H. unfold with_coordinate. revert i H. induction p as [|x p IH]; intros i H; [cbn in H; lia|].
  destruct i as [|i]; [reflexivity|]. cbn. f_equal. apply IH. cbn in H. lia.
Qed.
Lemma with_coordinate_nth : forall p i t j, (i < length p)%nat ->
  nth j (with_coordinate p i t) 0 = if (j =? i)%nat then t else nth j p 0.
Proof.
  intros p i t j H. unfold with_coordinate. revert i j H. induction p as [|x p IH]; intros i j H; [cbn in H; lia|].
  destruct i as [|i], j as [|j]; try reflexivity. cbn. apply IH. cbn in H. lia.
Qed.
Lemma with_coordinate_close : forall p i t delta, (i < length p)%nat -> Rabs (t - nth i p 0) < delta ->
  close delta p (with_coordinate p i t).
Proof.
  intros p i t delta H C. split; [apply with_coordinate_length, H|]. intros j Hj.
  rewrite with_coordinate_nth by exact H. destruct (Nat.eqb_spec j i) as [->|_]; [exact C|].
  unfold Rminus. rewrite Rplus_opp_r, Rabs_R0. eapply Rle_lt_trans; [apply Rabs_pos|exact C].
Qed.

(** a function on the physical element, along a coordinate of the reference element *)
Lemma along : forall g nodes p x u D i, has_mapping g -> regular g p -> are_nodes_of g nodes ->
  length p = dimension (base g) -> phys_transform g nodes p = Some x -> has_derivatives u x D ->
  (i < dimension (base g))%nat ->
  derivable_pt_lim (fun t => u (image g nodes (with_coordinate p i t))) (nth i p 0)
    (total (dimension (base g)) (fun k => D k * entry g nodes p k i)).
Proof.
  intros g nodes p x u D i G GP H L E Du Hi.
  destruct (transform_value g nodes p G H L) as (x' & E' & Lx & _). rewrite E in E'. injection E' as <-.
  rewrite <- Lx. apply (chain u x D (fun t => image g nodes (with_coordinate p i t))); [exact Du| | |].
  - rewrite with_coordinate_same by (rewrite L; exact Hi). unfold image. rewrite E. reflexivity.
  - intros t. assert (L' : length (with_coordinate p i t) = dimension (base g)) by (rewrite with_coordinate_length; [exact L|rewrite L; exact Hi]).
    destruct (transform_value g nodes _ G H L') as (y & Ey & Ly & _). unfold image. rewrite Ey, Ly, Lx. reflexivity.
  - intros k Hk. rewrite Lx in Hk.
    apply (derivable_pt_lim_ext (fun t => coordinate (phys_transform g nodes (with_coordinate p i t)) k)).
    + intros t. unfold coordinate, image. destruct (phys_transform g nodes (with_coordinate p i t)); [reflexivity|destruct k; reflexivity].
    + apply entry_derivative; assumption.
Qed.

Lemma mapped_det : forall g nodes p x data, has_mapping g -> are_nodes_of g nodes ->
  length p = dimension (base g) -> mapped g nodes p x data ->
  let d := dimension (base g) in let e := entry g nodes p in
  data = TransformationData (matrix_of e d) (matrix_of (transposed e) d) (det d e) /\ det d e <> 0 /\ image g nodes p = x /\
  det d (transposed e) <> 0.
Proof.
  intros g nodes p x data G H L (E & Ed & N) d e. unfold data_in in Ed.
  destruct (phys_jacobian g nodes p) as [J|] eqn:EJ; [|discriminate Ed].
  assert (J = matrix_of e d) as -> by (apply (jacobian_matrix g nodes p J G H L EJ)).
  unfold d in Ed. rewrite setJacobian_matrix in Ed by (apply dimension_small, G). injection Ed as <-.
  cbn [getJacobianDet] in N. split; [reflexivity|]. split; [exact N|].
  split; [unfold image; rewrite E; reflexivity|]. rewrite det_transposed by (apply dimension_small, G). exact N.
Qed.

Lemma nth_product : forall d A y i, (i < d)%nat -> nth i (product d A y) 0 = total d (fun j => A i j * nth j y 0).
Proof.
  intros d A y i H. unfold product. set (F := fun i => total d (fun j => A i j * nth j y 0)).
  rewrite (nth_indep _ 0 (F 0%nat)) by (rewrite map_length, seq_length; exact H).
  rewrite map_nth, seq_nth by exact H. reflexivity.
Qed.
Lemma list_by_nth : forall (l l' : list R), length l = length l' ->
  (forall i, (i < length l)%nat -> nth i l 0 = nth i l' 0) -> l = l'.
Proof. intros l l' L H. apply (nth_ext l l' 0 0 L H). Qed.

(** ** gradients *)
Lemma gradient_ok : forall g nodes p x data f u v grad, has_mapping g -> regular g p -> are_nodes_of g nodes ->
  length p = dimension (base g) -> mapped g nodes p x data -> scalar_transformed H1Conforming g nodes p f u ->
  is_reference_gradient f p v -> is_gradient_of u x grad -> transformDeriv H1Conforming v data = Some grad.
Proof.
  intros g nodes p x data f u v grad G GP H L M (delta & Hd & T) (Lv & Dv) (Lg & Dg).
  destruct (transform_value g nodes p G H L) as (x' & E' & Lx & _).
  assert (E : phys_transform g nodes p = Some x) by apply M. rewrite E in E'. injection E' as <-.
  destruct (mapped_det g nodes p x data G H L M) as (-> & N & _ & N').
  cbn [transformDeriv getTransposeJacobian].
  assert (Ev : v = product (dimension (base g)) (transposed (entry g nodes p)) grad).
  { apply list_by_nth; [unfold product; rewrite map_length, seq_length; congruence|]. intros i Hi. rewrite Lv in Hi.
    rewrite nth_product by (rewrite <- L; exact Hi).
    specialize (Dv i Hi). rewrite L in Hi.
    assert (A := along g nodes p x u _ i G GP H L E Dg Hi).
    apply (uniqueness_limite _ _ _ _ Dv).
    eapply D_eq; [|apply total_ext; intros k Hk; unfold transposed; apply Rmult_comm].
    refine (D_local _ _ _ _ delta Hd _ A). intros t Ht.
    destruct (T (with_coordinate p i t)) as (y & data & (Ey & _) & Et); [apply with_coordinate_close; [rewrite L; exact Hi|exact Ht]|].
    injection Et as ->. unfold image. rewrite Ey. reflexivity. }
  rewrite Ev. apply solve_product; [apply dimension_small, G|exact N'|rewrite Lg, Lx; reflexivity].
Qed.

(** ** symmetry of the second derivatives *)
Lemma finite_choice : forall (A : Type) (a : A) d (P : nat -> A -> Prop), (forall i, (i < d)%nat -> exists x, P i x) ->
  exists f, forall i, (i < d)%nat -> P i (f i).
Proof.
  intros A a. induction d; intros P H; [exists (fun _ => a); intros; lia|].
  destruct (IHd P) as (f & Hf); [intros; apply H; lia|]. destruct (H d) as (x & Hx); [lia|].
  exists (fun i => if (i =? d)%nat then x else f i). intros i Hi.
  destruct (Nat.eqb_spec i d) as [->|N]; [exact Hx|apply Hf; lia].
Qed.

Lemma hessian : forall g nodes p, has_mapping g -> regular g p -> are_nodes_of g nodes ->
  length p = dimension (base g) -> let d := dimension (base g) in
  exists h : nat -> nat -> nat -> R,
    (forall k i j, (k < d)%nat -> (i < d)%nat -> (j < d)%nat ->
      derivable_pt_lim (fun t => entry g nodes (with_coordinate p j t) k i) (nth j p 0) (h k i j)) /\
    (forall k i j, (k < d)%nat -> (i < d)%nat -> (j < d)%nat -> h k i j = h k j i).
Proof.
  intros g nodes p G GP H L d.
  destruct (finite_choice (nat -> nat -> R) (fun _ _ => 0) d (fun k h => forall i, (i < d)%nat -> forall j, (j < d)%nat ->
      derivable_pt_lim (fun t => entry g nodes (with_coordinate p j t) k i) (nth j p 0) (h i j) /\
      derivable_pt_lim (fun t => entry g nodes (with_coordinate p i t) k j) (nth i p 0) (h i j))) as (h & Hh).
  { intros k Hk. apply (finite_choice (nat -> R) (fun _ => 0) d (fun i h => forall j, (j < d)%nat ->
      derivable_pt_lim (fun t => entry g nodes (with_coordinate p j t) k i) (nth j p 0) (h j) /\
      derivable_pt_lim (fun t => entry g nodes (with_coordinate p i t) k j) (nth i p 0) (h j))).
    intros i Hi. apply (finite_choice R 0 d (fun j h =>
      derivable_pt_lim (fun t => entry g nodes (with_coordinate p j t) k i) (nth j p 0) h /\
      derivable_pt_lim (fun t => entry g nodes (with_coordinate p i t) k j) (nth i p 0) h)).
    intros j Hj. apply second_derivatives; assumption. }
  exists h. split; [intros k i j Hk Hi Hj; apply (Hh k Hk i Hi j Hj)|].
  intros k i j Hk Hi Hj. apply (uniqueness_limite _ _ _ _ (proj1 (Hh k Hk i Hi j Hj)) (proj2 (Hh k Hk j Hj i Hi))).
Qed.

(** ** products and their inverses *)
Lemma mat_vec_product : forall d A y, (1 <= d <= 4)%nat -> length y = d ->
  mat_vec 0 1 Rplus Rmult (matrix_of A d) y = Some (product d A y).
Proof.
  intros d A y Hd L. small_dim d; points_of_dim; cbn; f_equal; list_eq ltac:(ring).
Qed.

(** the entries of the matrix det(A) times the inverse of A *)
Definition adj (d : nat) (A : nat -> nat -> R) (j k : nat) : R :=
  det d (fun a b => if (b =? j)%nat then (if (a =? k)%nat then 1 else 0) else A a b).
(** the derivative of the determinant for derivatives [h] of the entries *)
Definition ddet (d : nat) (A h : nat -> nat -> R) : R :=
  total d (fun m => det d (fun a b => if (b =? m)%nat then h a b else A a b)).

Lemma D_det : forall d (E : nat -> nat -> R -> R) h x, (1 <= d <= 4)%nat ->
  (forall a b, (a < d)%nat -> (b < d)%nat -> derivable_pt_lim (E a b) x (h a b)) ->
  derivable_pt_lim (fun t => det d (fun a b => E a b t)) x (ddet d (fun a b => E a b x) h).
Proof.
  intros d E h x Hd H. small_dim d; unfold ddet; cbn;
    (eapply D_eq; [repeat first [derive_rule | apply H; lia]|cbv beta; ring]).
Qed.
Lemma D_adj : forall d (E : nat -> nat -> R -> R) h x j k, (1 <= d <= 4)%nat ->
  (forall a b, (a < d)%nat -> (b < d)%nat -> derivable_pt_lim (E a b) x (h a b)) ->
  derivable_pt_lim (fun t => adj d (fun a b => E a b t) j k) x
    (ddet d (fun a b => if (b =? j)%nat then (if (a =? k)%nat then 1 else 0) else E a b x)
            (fun a b => if (b =? j)%nat then 0 else h a b)).
Proof.
  intros d E h x j k Hd H. unfold adj.
  apply (D_det d (fun a b t => if (b =? j)%nat then (if (a =? k)%nat then 1 else 0) else E a b t)); [exact Hd|].
  intros a b Ha Hb. destruct (b =? j)%nat; [apply D_const|apply (H a b Ha Hb)].
Qed.

Lemma piola_inverse : forall d A T y v, (1 <= d <= 4)%nat -> det d A <> 0 -> length y = d ->
  piola y (TransformationData (matrix_of A d) T (det d A)) = Some v ->
  forall j, (j < d)%nat -> nth j y 0 = total d (fun k => adj d A j k * nth k v 0).
Proof.
  intros d A T y v Hd N L. unfold piola. cbn [getJacobian getJacobianDet]. rewrite mat_vec_product by assumption.
  unfold vdivide. intros E j Hj. injection E as <-.
  small_dim d; points_of_dim; cbn -[det Rdiv adj]; enum 4%nat j; try lia; clear Hj; cbn -[det Rdiv adj];
    (field_simplify_eq; [|exact N]); unfold adj, det; cbn; ring.
Qed.

Lemma piola_identity : forall d A h D u, (1 <= d <= 4)%nat ->
  (forall k i j, (k < d)%nat -> (i < d)%nat -> (j < d)%nat -> h k i j = h k j i) ->
  (d = 4%nat -> forall k i j, (k < d)%nat -> (i < d)%nat -> (j < d)%nat -> h k i j = 0) ->
  total d (fun j => total d (fun k =>
    ddet d (fun a b => if (b =? j)%nat then (if (a =? k)%nat then 1 else 0) else A a b)
           (fun a b => if (b =? j)%nat then 0 else h a b j) * u k +
    adj d A j k * total d (fun l => D k l * A l j))) = total d (fun i => D i i) * det d A.
Proof.
  intros d A h D u Hd S Z. small_dim d.
  - unfold ddet, adj. cbn. ring.
  - unfold ddet, adj. cbn. rewrite !(S _ 1%nat 0%nat) by lia. ring.
  - unfold ddet, adj. cbn. rewrite !(S _ 1%nat 0%nat), !(S _ 2%nat 0%nat), !(S _ 2%nat 1%nat) by lia. ring.
  - specialize (Z eq_refl). transitivity (total 4 (fun j => total 4 (fun k => adj 4 A j k * total 4 (fun l => D k l * A l j)))).
    + apply total_ext. intros j Hj. apply total_ext. intros k Hk.
      replace (ddet 4 _ _) with 0; [ring|]. unfold ddet. cbn.
      enum 4%nat j; try lia; cbn; rewrite !Z by lia; ring.
    + unfold adj. cbn. ring.
Qed.

(** ** curl *)
Lemma curl_values : forall g nodes p q f u delta, has_mapping g -> are_nodes_of g nodes ->
  length p = dimension (base g) ->
  (forall q, close delta p q -> length (f q) = length p /\
     exists x data, mapped g nodes q x data /\ transform_vector HCurlConforming (f q) data = Some (u x)) ->
  close delta p q -> forall i, (i < dimension (base g))%nat ->
  nth i (f q) 0 = total (dimension (base g)) (fun k => entry g nodes q k i * nth k (u (image g nodes q)) 0).
Proof.
  intros g nodes p q f u delta G H L T C i Hi. destruct (T q C) as (Lf & x & data & M & E).
  assert (Lq : length q = dimension (base g)) by (rewrite (proj1 C); exact L).
  destruct (mapped_det g nodes q x data G H Lq M) as (-> & N & -> & N').
  cbn [transform_vector getTransposeJacobian] in E.
  apply solve_solution in E; [|apply dimension_small, G|exact N'|congruence]. destruct E as [_ E].
  rewrite E, nth_product by exact Hi. reflexivity.
Qed.

Lemma curl_product : forall g nodes p x u D h i j, has_mapping g -> regular g p -> are_nodes_of g nodes ->
  length p = dimension (base g) -> phys_transform g nodes p = Some x -> has_components u x D ->
  (forall k i j, (k < dimension (base g))%nat -> (i < dimension (base g))%nat -> (j < dimension (base g))%nat ->
      derivable_pt_lim (fun t => entry g nodes (with_coordinate p j t) k i) (nth j p 0) (h k i j)) ->
  (i < dimension (base g))%nat -> (j < dimension (base g))%nat ->
  derivable_pt_lim (fun t => total (dimension (base g)) (fun k => entry g nodes (with_coordinate p j t) k i *
      nth k (u (image g nodes (with_coordinate p j t))) 0)) (nth j p 0)
    (total (dimension (base g)) (fun k => h k i j * nth k (u x) 0 +
       entry g nodes p k i * total (dimension (base g)) (fun l => D k l * entry g nodes p l j))).
Proof.
  intros g nodes p x u D h i j G GP H L E Du Hh Hi Hj.
  destruct (transform_value g nodes p G H L) as (x' & E' & Lx & _). rewrite E in E'. injection E' as <-.
  apply (D_total _ (fun k t => entry g nodes (with_coordinate p j t) k i *
      nth k (u (image g nodes (with_coordinate p j t))) 0)). intros k Hk.
  assert (A := along g nodes p x (fun y => nth k (u y) 0) (D k) j G GP H L E (Du k ltac:(rewrite Lx; exact Hk)) Hj).
  cbv beta in A.
  eapply D_eq; [apply (D_mult _ _ _ _ _ (Hh k i j Hk Hi Hj) A)|].
  cbv beta. rewrite with_coordinate_same by (rewrite L; exact Hj). unfold image. rewrite E. reflexivity.
Qed.

Lemma curl_partials : forall g nodes p x data f u, has_mapping g -> regular g p -> are_nodes_of g nodes ->
  length p = dimension (base g) -> mapped g nodes p x data -> vector_transformed HCurlConforming g nodes p f u ->
  forall D Df h, has_components u x D -> has_component_partials f p Df ->
  (forall k i j, (k < dimension (base g))%nat -> (i < dimension (base g))%nat -> (j < dimension (base g))%nat ->
      derivable_pt_lim (fun t => entry g nodes (with_coordinate p j t) k i) (nth j p 0) (h k i j)) ->
  forall i j, (i < dimension (base g))%nat -> (j < dimension (base g))%nat ->
  Df i j = total (dimension (base g)) (fun k => h k i j * nth k (u x) 0 +
     entry g nodes p k i * total (dimension (base g)) (fun l => D k l * entry g nodes p l j)).
Proof.
  intros g nodes p x data f u G GP H L M (delta & Hd & T) D Df h Du Dp Hh i j Hi Hj.
  destruct (transform_value g nodes p G H L) as (x' & E' & Lx & _).
  assert (E : phys_transform g nodes p = Some x) by apply M. rewrite E in E'. injection E' as <-.
  assert (Dfij := Dp i ltac:(rewrite L; exact Hi) j ltac:(rewrite L; exact Hj)). cbv beta in Dfij.
  apply (uniqueness_limite _ _ _ _ Dfij).
  refine (D_local _ (fun t => total (dimension (base g)) (fun k => entry g nodes (with_coordinate p j t) k i *
    nth k (u (image g nodes (with_coordinate p j t))) 0)) _ _ delta Hd _ _).
  - intros t Ht. apply (curl_values g nodes p _ f u delta G H L T); [|exact Hi].
    apply with_coordinate_close; [rewrite L; exact Hj|exact Ht].
  - apply curl_product; assumption.
Qed.

Lemma curl_ok : forall g nodes p x data f u c c', has_mapping g -> regular g p -> are_nodes_of g nodes ->
  length p = dimension (base g) -> mapped g nodes p x data -> vector_transformed HCurlConforming g nodes p f u ->
  is_reference_curl f p c -> is_curl_of u x c' -> transformCurl HCurlConforming c data = Some c'.
Proof.
  intros g nodes p x data f u c c' G GP H L M T (Df & Dp & Ec) (D & Du & Ec').
  destruct (hessian g nodes p G GP H L) as (h & Hh & Hs).
  assert (V := curl_partials g nodes p x data f u G GP H L M T D Df h Du Dp Hh).
  destruct (transform_value g nodes p G H L) as (x' & E' & Lx & _).
  assert (E : phys_transform g nodes p = Some x) by apply M. rewrite E in E'. injection E' as <-.
  destruct (mapped_det g nodes p x data G H L M) as (-> & N & _).
  rewrite L in Ec. rewrite Lx in Ec'. revert N Ec Ec' V Hs.
  generalize (dimension (base g)) (entry g nodes p) (u x). clear. intros d e u N Ec Ec' V Hs.
  destruct Ec as [[-> Ec]|[-> Ec]], Ec' as [[Ed Ec']|[Ed Ec']]; try discriminate Ed; clear Ed; subst c c';
    rewrite !V by lia; unfold transformCurl, piola; cbn -[det Rdiv total]; f_equal; unfold vdivide; cbn -[det Rdiv];
    list_eq ltac:(apply quotient; [exact N|]).
  all: try rewrite !(Hs _ 1%nat 0%nat) by lia; try rewrite !(Hs _ 2%nat 0%nat) by lia; try rewrite !(Hs _ 2%nat 1%nat) by lia.
  all: unfold det; cbn; ring.
Qed.

(** ** divergence *)
Lemma hypercube_second : forall nodes p k i j h, are_nodes_of (Base Hypercube) nodes -> length p = 4%nat ->
  (k < 4)%nat -> (i < 4)%nat -> (j < 4)%nat ->
  derivable_pt_lim (fun t => entry (Base Hypercube) nodes (with_coordinate p j t) k i) (nth j p 0) h -> h = 0.
Proof.
  intros nodes p k i j h H L Hk Hi Hj D. apply (uniqueness_limite _ _ _ _ D). clear D.
  coordinates_of H; enum 4%nat k; try lia; enum 4%nat i; try lia; enum 4%nat j; try lia; clear Hk Hi Hj; cbn; apply D_const.
Qed.

Lemma div_product : forall g nodes p x u D h j, has_mapping g -> regular g p -> are_nodes_of g nodes ->
  length p = dimension (base g) -> phys_transform g nodes p = Some x -> has_components u x D ->
  (forall k i j, (k < dimension (base g))%nat -> (i < dimension (base g))%nat -> (j < dimension (base g))%nat ->
      derivable_pt_lim (fun t => entry g nodes (with_coordinate p j t) k i) (nth j p 0) (h k i j)) ->
  (j < dimension (base g))%nat ->
  let d := dimension (base g) in let A := entry g nodes p in
  forall m, derivable_pt_lim (fun t => total d (fun k => adj d (fun a b => entry g nodes (with_coordinate p j t) a b) m k *
      nth k (u (image g nodes (with_coordinate p j t))) 0)) (nth j p 0)
    (total d (fun k =>
      ddet d (fun a b => if (b =? m)%nat then (if (a =? k)%nat then 1 else 0) else A a b)
             (fun a b => if (b =? m)%nat then 0 else h a b j) * nth k (u x) 0 +
      adj d A m k * total d (fun l => D k l * A l j))).
Proof.
  intros g nodes p x u D h j G GP H L E Du Hh Hj d A m.
  destruct (transform_value g nodes p G H L) as (x' & E' & Lx & _). rewrite E in E'. injection E' as <-.
  apply (D_total _ (fun k t => adj d (fun a b => entry g nodes (with_coordinate p j t) a b) m k *
      nth k (u (image g nodes (with_coordinate p j t))) 0)). intros k Hk.
  assert (B := along g nodes p x (fun y => nth k (u y) 0) (D k) j G GP H L E (Du k ltac:(rewrite Lx; exact Hk)) Hj).
  cbv beta in B.
  eapply D_eq; [apply (D_mult (fun t => adj d (fun a b => entry g nodes (with_coordinate p j t) a b) m k)); [|exact B];
    apply (D_adj d (fun a b t => entry g nodes (with_coordinate p j t) a b) (fun a b => h a b j)); [apply dimension_small, G|];
    intros a b Ha Hb; apply Hh; assumption|].
  cbv beta. rewrite with_coordinate_same by (rewrite L; exact Hj). unfold image. rewrite E. reflexivity.
Qed.

Lemma div_partials : forall g nodes p x data f u, has_mapping g -> regular g p -> are_nodes_of g nodes ->
  length p = dimension (base g) -> mapped g nodes p x data -> vector_transformed HDivConforming g nodes p f u ->
  forall D Df h, has_components u x D -> has_component_partials f p Df ->
  (forall k i j, (k < dimension (base g))%nat -> (i < dimension (base g))%nat -> (j < dimension (base g))%nat ->
      derivable_pt_lim (fun t => entry g nodes (with_coordinate p j t) k i) (nth j p 0) (h k i j)) ->
  let d := dimension (base g) in let A := entry g nodes p in
  forall j, (j < dimension (base g))%nat ->
  Df j j = total d (fun k =>
    ddet d (fun a b => if (b =? j)%nat then (if (a =? k)%nat then 1 else 0) else A a b)
           (fun a b => if (b =? j)%nat then 0 else h a b j) * nth k (u x) 0 +
    adj d A j k * total d (fun l => D k l * A l j)).
Proof.
  intros g nodes p x data f u G GP H L M (delta & Hd & T) D Df h Du Dp Hh d A j Hj.
  destruct (transform_value g nodes p G H L) as (x' & E' & Lx & _).
  assert (E : phys_transform g nodes p = Some x) by apply M. rewrite E in E'. injection E' as <-.
  assert (Dfij := Dp j ltac:(rewrite L; exact Hj) j ltac:(rewrite L; exact Hj)). cbv beta in Dfij.
  apply (uniqueness_limite _ _ _ _ Dfij).
  refine (D_local _ (fun t => total d (fun k => adj d (fun a b => entry g nodes (with_coordinate p j t) a b) j k *
    nth k (u (image g nodes (with_coordinate p j t))) 0)) _ _ delta Hd _ _).
  - intros t Ht. destruct (T (with_coordinate p j t)) as (Lf & y & data' & M' & Et).
    { apply with_coordinate_close; [rewrite L; exact Hj|exact Ht]. }
    assert (Lq : length (with_coordinate p j t) = dimension (base g)) by (rewrite with_coordinate_length; [exact L|rewrite L; exact Hj]).
    destruct (mapped_det g nodes _ y data' G H Lq M') as (-> & N & -> & _).
    apply (piola_inverse d _ _ (f (with_coordinate p j t)) (u y) (dimension_small g G) N) with (2 := Et); [exact (eq_trans Lf L)|exact Hj].
  - apply (div_product g nodes p x u D h j); assumption.
Qed.

Lemma div_ok : forall g nodes p x data f u c c', has_mapping g -> regular g p -> are_nodes_of g nodes ->
  length p = dimension (base g) -> mapped g nodes p x data -> vector_transformed HDivConforming g nodes p f u ->
  is_reference_divergence f p c -> is_divergence_of u x c' -> transformDiv HDivConforming c data = Some c'.
Proof.
  intros g nodes p x data f u c c' G GP H L M T (Df & Dp & Ec) (D & Du & Ec').
  destruct (hessian g nodes p G GP H L) as (h & Hh & Hs).
  assert (V := div_partials g nodes p x data f u G GP H L M T D Df h Du Dp Hh). cbv zeta in V.
  destruct (transform_value g nodes p G H L) as (x' & E' & Lx & _).
  assert (E : phys_transform g nodes p = Some x) by apply M. rewrite E in E'. injection E' as <-.
  destruct (mapped_det g nodes p x data G H L M) as (-> & N & _).
  cbn [transformDiv getJacobianDet]. f_equal. apply quotient; [exact N|].
  rewrite L in Ec. rewrite Lx in Ec'. subst c c'. rewrite (total_ext _ _ _ V).
  apply (piola_identity _ _ h); [apply dimension_small, G|exact Hs|].
  intros E4 k i j Hk Hi Hj. assert (g = Base Hypercube) as ->.
  { each_geometry g G; try discriminate E4. reflexivity. }
  apply (hypercube_second nodes p k i j (h k i j) H L Hk Hi Hj). apply Hh; assumption.
Qed.


(** ** every function on the physical element comes from one on the reference element *)
Lemma close_self : forall p delta, 0 < delta -> close delta p p.
Proof.
  intros p delta H. split; [reflexivity|]. intros i _. unfold Rminus. rewrite Rplus_opp_r, Rabs_R0. exact H.
Qed.

Lemma piola_adj : forall d A T v, (1 <= d <= 4)%nat -> det d A <> 0 -> length v = d ->
  piola (product d (adj d A) v) (TransformationData (matrix_of A d) T (det d A)) = Some v.
Proof.
  intros d A T v Hd N L. unfold piola. cbn [getJacobian getJacobianDet].
  rewrite mat_vec_product by (try assumption; unfold product; rewrite map_length, seq_length; reflexivity).
  f_equal. small_dim d; points_of_dim; unfold vdivide, product; cbn -[det adj Rdiv];
    list_eq ltac:(apply quotient; [exact N|unfold adj, det; cbn; ring]).
Qed.

Definition around (g : geometry) (nodes : list point) (p : point) (u : point -> list R) (delta : R) : Prop :=
  forall q, close delta p q -> exists x data, mapped g nodes q x data /\ length (u x) = dimension (base g).

Lemma curl_pullback : forall g nodes p x u D delta, has_mapping g -> regular g p -> are_nodes_of g nodes ->
  length p = dimension (base g) -> phys_transform g nodes p = Some x -> 0 < delta -> around g nodes p u delta ->
  has_components u x D ->
  exists f Df, vector_transformed HCurlConforming g nodes p f u /\ has_component_partials f p Df.
Proof.
  intros g nodes p x u D delta G GP H L E Hd T Du.
  destruct (hessian g nodes p G GP H L) as (h & Hh & _).
  exists (fun q => product (dimension (base g)) (transposed (entry g nodes q)) (u (image g nodes q))). eexists. split.
  - exists delta. split; [exact Hd|]. intros q C. split; [unfold product; rewrite map_length, seq_length; congruence|].
    destruct (T q C) as (y & data & M & Ly). exists y, data. split; [exact M|].
    destruct (mapped_det g nodes q y data G H (eq_trans (proj1 C) L) M) as (-> & N & -> & N').
    cbn [transform_vector getTransposeJacobian]. apply solve_product; [apply dimension_small, G|exact N'|exact Ly].
  - intros i Hi j Hj. rewrite L in Hi, Hj.
    refine (derivable_pt_lim_ext _ _ _ _ _ (curl_product g nodes p x u D h i j G GP H L E Du Hh Hi Hj)).
    intros t. rewrite nth_product by exact Hi. reflexivity.
Qed.
Lemma div_pullback : forall g nodes p x u D delta, has_mapping g -> regular g p -> are_nodes_of g nodes ->
  length p = dimension (base g) -> phys_transform g nodes p = Some x -> 0 < delta -> around g nodes p u delta ->
  has_components u x D ->
  exists f Df, vector_transformed HDivConforming g nodes p f u /\ has_component_partials f p Df.
Proof.
  intros g nodes p x u D delta G GP H L E Hd T Du.
  destruct (hessian g nodes p G GP H L) as (h & Hh & _).
  exists (fun q => product (dimension (base g)) (adj (dimension (base g)) (entry g nodes q)) (u (image g nodes q))). eexists. split.
  - exists delta. split; [exact Hd|]. intros q C. split; [unfold product; rewrite map_length, seq_length; congruence|].
    destruct (T q C) as (y & data & M & Ly). exists y, data. split; [exact M|].
    destruct (mapped_det g nodes q y data G H (eq_trans (proj1 C) L) M) as (-> & N & -> & N').
    cbn [transform_vector]. apply piola_adj; [apply dimension_small, G|exact N|exact Ly].
  - intros i Hi j Hj. rewrite L in Hi, Hj.
    refine (derivable_pt_lim_ext _ _ _ _ _ (div_product g nodes p x u D h j G GP H L E Du Hh Hj i)).
    intros t. rewrite nth_product by exact Hi. reflexivity.
Qed.
Lemma gradient_pullback : forall g nodes p x u D delta, has_mapping g -> regular g p -> are_nodes_of g nodes ->
  length p = dimension (base g) -> phys_transform g nodes p = Some x -> 0 < delta ->
  (forall q, close delta p q -> exists x data, mapped g nodes q x data) ->
  has_derivatives u x D ->
  exists f v, scalar_transformed H1Conforming g nodes p f u /\ is_reference_gradient f p v.
Proof.
  intros g nodes p x u D delta G GP H L E Hd T Du.
  exists (fun q => u (image g nodes q)),
    (map (fun i => total (dimension (base g)) (fun k => D k * entry g nodes p k i)) (seq 0 (dimension (base g)))). split.
  - exists delta. split; [exact Hd|]. intros q C. destruct (T q C) as (y & data & M). exists y, data. split; [exact M|].
    cbn. unfold image. destruct M as (-> & _). reflexivity.
  - split; [rewrite map_length, seq_length; congruence|]. intros i Hi. rewrite L in Hi.
    set (F := fun i => total (dimension (base g)) (fun k => D k * entry g nodes p k i)).
    fold F. rewrite (nth_indep (map F _) 0 (F 0%nat)) by (rewrite map_length, seq_length; exact Hi).
    rewrite map_nth, seq_nth by exact Hi. unfold F. apply (along g nodes p x u D i); assumption.
Qed.

(** ** traces *)
Lemma matrix_entries : forall d A e, (d <= 4)%nat -> is_matrix (matrix_of A d) d d e ->
  forall i j, (i < d)%nat -> (j < d)%nat -> e i j = A i j.
Proof.
  intros d A e Hd (_ & _ & _ & M) i j Hi Hj. destruct (matrix_of_entries A d Hd) as (_ & _ & _ & M').
  specialize (M i j). rewrite M' in M. apply Nat.ltb_lt in Hi as Hi', Hj as Hj'. rewrite Hi', Hj' in M. cbn [andb] in M. injection M as ->. reflexivity.
Qed.

Lemma circulation : forall g nodes p x data w v e a, has_mapping g -> are_nodes_of g nodes -> length p = dimension (base g) ->
  mapped g nodes p x data -> is_matrix (getJacobian data) (length p) (length p) e -> length w = length p ->
  transform_vector HCurlConforming w data = Some v ->
  total (length p) (fun i => nth i v 0 * total (length p) (fun j => e i j * a j)) = total (length p) (fun i => nth i w 0 * a i).
Proof.
  intros g nodes p x data w v e a G H L M Me Lw Et.
  destruct (mapped_det g nodes p x data G H L M) as (-> & N & _ & N').
  cbn [transform_vector getTransposeJacobian getJacobian] in *. rewrite L in *.
  assert (Dm := dimension_small g G).
  assert (X := matrix_entries _ _ _ (proj2 Dm) Me).
  apply solve_solution in Et; [|exact Dm|exact N'|congruence]. destruct Et as [Lv ->].
  clear - Dm X. revert Dm X. generalize (dimension (base g)) (entry g nodes p). intros d A Dm X.
  transitivity (total d (fun i => nth i v 0 * total d (fun j => A i j * a j))).
  - apply total_ext. intros i Hi. f_equal. apply total_ext. intros j Hj. rewrite X by assumption. reflexivity.
  - transitivity (total d (fun i => total d (fun j => transposed A i j * nth j v 0) * a i)).
    + small_dim d; unfold transposed; cbn; ring.
    + apply total_ext. intros i Hi. rewrite nth_product by exact Hi. reflexivity.
Qed.

Lemma flux : forall g nodes p x data w v e (a : nat -> nat -> R), has_mapping g -> are_nodes_of g nodes ->
  length p = dimension (base g) -> (length p <= 3)%nat ->
  mapped g nodes p x data -> is_matrix (getJacobian data) (length p) (length p) e -> length w = length p ->
  transform_vector HDivConforming w data = Some v ->
  leibniz 0 1 Rplus Rmult Ropp (length p)
    (fun i j => match j with O => nth i v 0 | S k => total (length p) (fun l => e i l * a k l) end) =
  leibniz 0 1 Rplus Rmult Ropp (length p) (fun i j => match j with O => nth i w 0 | S k => a k i end).
Proof.
  intros g nodes p x data w v e a G H L L3 M Me Lw Et.
  destruct (mapped_det g nodes p x data G H L M) as (-> & N & _ & N').
  cbn [transform_vector getJacobian] in *. rewrite L in *.
  assert (Dm := dimension_small g G).
  assert (X := matrix_entries _ _ _ (proj2 Dm) Me).
  unfold piola in Et. cbn [getJacobian getJacobianDet] in Et. rewrite mat_vec_product in Et by assumption. injection Et as <-.
  clear - Dm L3 X N Lw. revert Dm L3 X N Lw. generalize (dimension (base g)) (entry g nodes p). intros d A Dm L3 X N Lw.
  small_dim d; points_of_dim; unfold vdivide, product; cbn -[det Rdiv]; rewrite ?X by lia;
    (field_simplify_eq; [|exact N]); unfold det; cbn; ring.
Qed.
