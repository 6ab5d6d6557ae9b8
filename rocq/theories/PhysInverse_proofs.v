From Coq Require Import List Arith Bool Lia Permutation Reals Lra Field.
From Verif Require Import Loop_model Matrix_model Matrix_spec Determinant_model Determinant_spec Determinant_proofs
  Derivative RefGeometry_model RefGeometry_spec RefGeometry_proofs Curvilinear_model PhysMapping_model PhysMapping_spec
  PhysMapping_proofs.
Import ListNotations.
Local Open Scope R_scope.

Lemma pyramid_jacobian_ok : forall nodes x y z, are_nodes_of (Base Pyramid) nodes ->
  (x = 0 /\ y = 0) \/ (z <> 1 /\ / 10 ^ 14 <= Rabs (z - 1) + Rabs x + Rabs y) ->
  exists J, phys_jacobian (Base Pyramid) nodes [x; y; z] = Some J /\
    is_jacobian (phys_transform (Base Pyramid) nodes) 3 3 [x; y; z] J.
Proof.
  intros nodes x y z H C. coordinates_of H.
  cbn -[pyramid_denominator Rlt_dec Req_EM_T pow].
  assert (Z : exists z', (if Rlt_dec (Rabs (z - 1) + Rabs x + Rabs y) (/ 10 ^ 14) then z - / 10 ^ 10 else z) = z' /\
    1 - z' <> 0 /\ (x = 0 /\ y = 0 \/ z' = z)).
  { eexists. split; [reflexivity|].
    assert (P10 : / 10 ^ 14 < / 10 ^ 10).
    { apply Rinv_lt_contravar; [apply Rmult_lt_0_compat; apply pow_lt; lra|]. apply Rlt_pow; [lra|lia]. }
    assert (P14 : 0 < / 10 ^ 14) by (apply Rinv_0_lt_compat, pow_lt; lra).
    destruct (Rlt_dec (Rabs (z - 1) + Rabs x + Rabs y) (/ 10 ^ 14)) as [Hlt|Hlt].
    - destruct C as [[Ex Ey]|[_ C]]; [|lra]. split; [|left; split; assumption].
      subst. rewrite Rabs_R0 in Hlt. assert (A := Rle_abs (z - 1)). assert (A' := Rle_abs (- (z - 1))).
      rewrite Rabs_Ropp in A'. lra.
    - split; [|right; reflexivity]. destruct C as [[Ex Ey]|[C _]]; [|lra].
      subst. rewrite Rabs_R0 in Hlt. intros E. apply Hlt. replace (z - 1) with 0 by lra. rewrite Rabs_R0. lra. }
  destruct Z as (z' & -> & Nz & C'). destruct (Req_EM_T (1 - z') 0); [contradiction|].
  assert (Dz : derivable_pt_lim (fun t => x * y * t / pyramid_denominator t) z (x * y / ((1 - z') * (1 - z')))).
  { destruct C' as [[Ex Ey]|Ez].
    - subst. apply (D_local _ (fun _ => 0) _ _ 1); [lra| |derive; assumption].
      intros t _. unfold Rdiv. ring.
    - subst z'. eapply D_eq; [apply (D_div (fun t => x * y * t) pyramid_denominator); [derive_with reflexivity|apply D_denominator; lra|apply denominator_not_0]|].
      unfold pyramid_denominator. destruct (Req_EM_T (1 - z) 0); [contradiction|]. cbv beta. field. assumption. }
  assert (V : forall a, (x = 0 /\ y = 0 -> a = 0) -> a * z / pyramid_denominator z = a * z' / (1 - z')).
  { intros a Ha. destruct C' as [E|Ez].
    - rewrite (Ha E). unfold Rdiv. ring.
    - subst z'. unfold pyramid_denominator. destruct (Req_EM_T (1 - z) 0); [contradiction|reflexivity]. }
  assert (Dx : derivable_pt_lim (fun t => t * y * z / pyramid_denominator z) x (y * z' / (1 - z'))).
  { rewrite <- (V y) by tauto. derive. apply denominator_not_0. apply denominator_not_0. }
  assert (Dy : derivable_pt_lim (fun t => x * t * z / pyramid_denominator z) y (x * z' / (1 - z'))).
  { rewrite <- (V x) by tauto. derive. apply denominator_not_0. apply denominator_not_0. }
  eexists. split; [reflexivity|].
  apply jacobian_by_entries; [reflexivity|reflexivity|reflexivity|].
  intros i j Hi Hj. enum 3%nat i; try lia; enum 3%nat j; try lia; clear Hi Hj; cbn -[pyramid_denominator pow];
    (eapply D_eq; [repeat first [apply Dz|apply Dx|apply Dy|derive_rule]|cbv beta; field; try split; try assumption; apply denominator_not_0]).
Qed.

(** ** C29: the exact inverses *)
Lemma line_inverse_ok : forall nodes x y, are_nodes_of (Base Line) nodes ->
  nth_error nodes 0 <> nth_error nodes 1 ->
  (exists q, phys_transform (Base Line) nodes [x] = Some q /\ line_inverse nodes q = Some [x]) /\
  (exists p, line_inverse nodes [y] = Some p /\ phys_transform (Base Line) nodes p = Some [y]).
Proof.
  intros nodes x y H N. coordinates_of H. cbn in N.
  assert (S : line_slope r0 r <> 0).
  { unfold line_slope. intros E. apply N. replace r with r0 by lra. reflexivity. }
  cbn -[Req_EM_T]. destruct (Req_EM_T (line_slope r0 r) 0); [contradiction|].
  split; (eexists; split; [reflexivity|]); cbn -[Req_EM_T];
    try (destruct (Req_EM_T (line_slope r0 r) 0); [contradiction|]); point_eq ltac:(field; assumption).
Qed.

Lemma quotient : forall a b d, d <> 0 -> a = b * d -> a / d = b.
Proof. intros a b d H ->. field. exact H. Qed.

Definition matrix_of (A : nat -> nat -> R) (d : nat) : matrix R :=
  Mat d d (flat_map (fun j => map (fun i => A i j) (seq 0 d)) (seq 0 d)).
Lemma matrix_of_entries : forall A d, (d <= 4)%nat -> is_matrix (matrix_of A d) d d A.
Proof.
  intros A d H. destruct d as [|[|[|[|[|d]]]]]; [| | | | |lia];
    (split; [reflexivity|split; [reflexivity|split; [reflexivity|]]]);
    intros i j; enum 4%nat i; enum 4%nat j; reflexivity.
Qed.
Lemma rdet_matrix_of : forall A d, (d <= 4)%nat -> rdet (matrix_of A d) = Some (leibniz 0 1 Rplus Rmult Ropp d A).
Proof. intros A d H. apply (determinant_ok _ _ _ _ _ _ RTheory _ _ _ (matrix_of_entries A d H) H). Qed.

Lemma solve_affine : forall d A b x y, (2 <= d <= 4)%nat -> invertible A d -> length x = d -> length y = d ->
  solve (matrix_of A d) (vsub (affine A b d x) (affine A b d y)) = Some (vsub x y).
Proof.
  intros d A b x y Hd I Lx Ly. unfold invertible in I. unfold solve.
  rewrite rdet_matrix_of by lia. destruct (Req_EM_T _ 0) as [E|_]; [contradiction|].
  destruct d as [|[|[|[|[|d]]]]]; try lia; points_of_dim;
    cbn -[leibniz Rdiv]; point_eq ltac:(apply quotient; [exact I|cbn; ring]).
Qed.

Lemma affine_length : forall A b d p, length (affine A b d p) = d.
Proof. intros. unfold affine. rewrite map_length, seq_length. reflexivity. Qed.

Lemma affine_onto : forall d A b q, (2 <= d <= 3)%nat -> invertible A d -> length q = d ->
  exists x, length x = d /\ affine A b d x = q.
Proof.
  intros d A b q Hd I L. unfold invertible in I.
  destruct d as [|[|[|[|d]]]]; try lia; points_of_dim; cbn in I.
  - match type of I with ?D <> 0 =>
      exists [((r - b 0%nat) * A 1%nat 1%nat - (r0 - b 1%nat) * A 0%nat 1%nat) / D;
              (A 0%nat 0%nat * (r0 - b 1%nat) - A 1%nat 0%nat * (r - b 0%nat)) / D] end.
    split; [reflexivity|]. cbn. point_eq ltac:(field; intros E; apply I; match type of E with ?a = 0 => transitivity a; [ring|exact E] end).
  - match type of I with ?D <> 0 =>
      exists (let u0 := r - b 0%nat in let u1 := r0 - b 1%nat in let u2 := r1 - b 2%nat in
        let a := A 0%nat 0%nat in let c := A 0%nat 1%nat in let e := A 0%nat 2%nat in
        let f := A 1%nat 0%nat in let g := A 1%nat 1%nat in let h := A 1%nat 2%nat in
        let k := A 2%nat 0%nat in let l := A 2%nat 1%nat in let m := A 2%nat 2%nat in
        [(u0 * (g * m - h * l) - c * (u1 * m - h * u2) + e * (u1 * l - g * u2)) / D;
         (a * (u1 * m - h * u2) - u0 * (f * m - h * k) + e * (f * u2 - u1 * k)) / D;
         (a * (g * u2 - u1 * l) - c * (f * u2 - u1 * k) + u0 * (f * l - g * k)) / D]) end.
    split; [reflexivity|]. cbn. point_eq ltac:(field; intros E; apply I; match type of E with ?a = 0 => transitivity a; [ring|exact E] end).
Qed.

Lemma affine_jacobian : forall g A b p, has_mapping g -> length p = dimension (base g) ->
  (g = Base Pyramid -> p = zero_point 3) ->
  phys_jacobian g (map (affine A b (dimension (base g))) (geometry_points g)) p = Some (matrix_of A (dimension (base g))).
Proof.
  intros g A b p G L Z.
  each_geometry g G; try (rewrite (Z eq_refl)); clear Z; cbn [base dimension] in L; points_of_dim;
    try (cbn; unfold columns, matrix_of, line_slope; cbn; apply f_equal; apply f_equal; point_eq ltac:(field); fail).
  cbn -[Rlt_dec Req_EM_T pow].
  destruct (Rlt_dec _ _) as [Hl|Hl].
  - exfalso. rewrite Rabs_R0 in Hl. unfold Rabs in Hl. destruct (Rcase_abs (0 - 1)); [|lra].
    assert (/ 10 ^ 14 < 1); [|lra]. rewrite <- Rinv_1. apply Rinv_lt_contravar; [lra|]. simpl. lra.
  - destruct (Req_EM_T (1 - 0) 0); [lra|].
    unfold columns, matrix_of; cbn. apply f_equal; apply f_equal; point_eq ltac:(field).
Qed.

Lemma simplex_is_affine : forall s nodes, s = Triangle \/ s = Tetrahedron -> are_nodes_of (Base s) nodes ->
  exists A b, nodes = map (affine A b (dimension s)) (points s).
Proof.
  intros s nodes Hs H.
  exists (fun i j => nth i (nth (S j) nodes []) 0 - nth i (nth 0 nodes []) 0), (fun i => nth i (nth 0 nodes []) 0).
  destruct Hs; subst s; coordinates_of H; cbn;
    repeat (apply cons_eq; [point_eq ltac:(ring)|]); reflexivity.
Qed.

Definition is_simplex (s : shape) : Prop := s = Triangle \/ s = Tetrahedron.
Lemma simplex_inverse_ok : forall s nodes x q, is_simplex s -> are_nodes_of (Base s) nodes ->
  (exists d, jacobian_determinant (Base s) nodes (zero_point (dimension s)) d /\ d <> 0) ->
  length x = dimension s -> length q = dimension s ->
  (exists y, phys_transform (Base s) nodes x = Some y /\ simplex_inverse (dimension s) nodes y = Some x) /\
  (exists p, simplex_inverse (dimension s) nodes q = Some p /\ phys_transform (Base s) nodes p = Some q).
Proof.
  intros s nodes x q Hs H (d & (J & e & EJ & HJ & Ed) & Nd) Lx Lq.
  assert (G : has_mapping (Base s)) by (destruct Hs; subst; exact I).
  assert (D : (2 <= dimension s <= 3)%nat) by (destruct Hs; subst; cbn; lia).
  assert (Hp : Base s <> Base Pyramid) by (destruct Hs; subst; discriminate).
  destruct (simplex_is_affine s nodes Hs H) as (A & b & ->).
  assert (L0 : length (zero_point (dimension s)) = dimension s) by apply repeat_length.
  assert (EJ' := affine_jacobian (Base s) A b (zero_point (dimension s)) G L0 (fun E => False_ind _ (Hp E))).
  cbn [base geometry_points] in EJ, EJ', HJ, Ed.
  rewrite EJ' in EJ. injection EJ as <-.
  assert (I' : invertible A (dimension s)).
  { unfold invertible. assert (R1 := rdet_matrix_of A (dimension s) ltac:(lia)).
    assert (R2 := determinant_ok _ _ _ _ _ _ RTheory _ _ _ HJ ltac:(lia)). unfold rdet in R1.
    rewrite R1 in R2. injection R2 as R2. rewrite R2, <- Ed. exact Nd. }
  assert (EI : forall y, length y = dimension s ->
    simplex_inverse (dimension s) (map (affine A b (dimension s)) (points s)) (affine A b (dimension s) y) = Some y).
  { intros y Ly. unfold simplex_inverse.
    destruct (map (affine A b (dimension s)) (points s)) as [|first rest] eqn:EN;
      [destruct Hs; subst; discriminate EN|].
    assert (J0 : simplex_jacobian (dimension s) (first :: rest) (zero_point (dimension s)) =
      Some (matrix_of A (dimension s))).
    { rewrite <- EJ'. destruct Hs; subst; reflexivity. }
    rewrite J0.
    assert (F : first = affine A b (dimension s) (zero_point (dimension s))).
    { destruct Hs; subst; cbn in EN; injection EN as <- _; reflexivity. }
    rewrite F, solve_affine by (assumption || lia).
    apply f_equal. destruct Hs; subst; cbn [dimension] in Ly; points_of_dim; cbn; point_eq ltac:(ring). }
  assert (ET := fun p Lp => affine_reproduced (Base s) A b p G Lp). cbn [base geometry_points] in ET.
  split.
  - exists (affine A b (dimension s) x). split; [apply ET; exact Lx|apply EI; exact Lx].
  - destruct (affine_onto (dimension s) A b q D I' Lq) as (p & Lp & <-).
    exists p. split; [apply EI; exact Lp|apply ET; exact Lp].
Qed.

(** ** Newton's iteration *)
Lemma norm_vsub : forall p q, length p = length q -> norm_squared (vsub p q) = distance2 p q.
Proof.
  unfold distance2. induction p as [|x p IH]; intros [|y q] L; try discriminate L; [reflexivity|].
  injection L as L. cbn [vsub norm_squared fold_right length seq map sum nth].
  rewrite <- seq_shift, map_map. cbn [nth]. specialize (IH q L). unfold norm_squared in IH. rewrite IH. unfold sum. ring.
Qed.

Lemma newton_loop_ok : forall F J target start left count r c p n,
  newton_loop F J target left count r c = Some (p, n) -> F r = Some c ->
  newton_iterate F J target start count r ->
  exists c', F p = Some c' /\ (count <= n <= S (count + left))%nat /\
    ((n <= count + left)%nat -> norm_squared (vsub target c') <= / 10 ^ 28 /\ newton_iterate F J target start n p) /\
    ((n = S (count + left))%nat -> / 10 ^ 28 < norm_squared (vsub target c') /\
      newton_iterate F J target start (count + left) p).
Proof.
  intros F J target start. induction left as [|left IH]; intros count r c p n H E It; cbn -[pow] in H.
  - destruct (Rlt_dec _ _) as [Hl|Hl]; injection H as <- <-; exists c; (split; [exact E|]); (split; [lia|]).
    + split; [intros; lia|]. intros _. rewrite Nat.add_0_r. split; assumption.
    + split; [|intros; lia]. intros _. split; [lra|assumption].
  - destruct (Rlt_dec _ _) as [Hl|Hl].
    + destruct (J r) as [M|] eqn:EJ; [|discriminate H]. destruct (solve M _) as [step|] eqn:ES; [|discriminate H].
      destruct (F (vadd r step)) as [c2|] eqn:E2; [|discriminate H].
      destruct (IH _ _ _ _ _ H E2) as (c' & E' & Hn & H1 & H2).
      { eapply iterate_S; eassumption. }
      exists c'. split; [exact E'|]. split; [lia|]. split; intros; [apply H1; lia|].
      replace (count + S left)%nat with (S count + left)%nat by lia. apply H2. lia.
    + injection H as <- <-. exists c. split; [exact E|]. split; [lia|]. split; [|intros; lia].
      intros _. split; [lra|assumption].
Qed.

Lemma uses_newton_inverse : forall fuel g nodes q, uses_newton g ->
  phys_inverse fuel g nodes q = newton_inverse (phys_transform g nodes) (phys_jacobian g nodes) (dimension (base g)) q.
Proof. intros fuel g nodes q U. destruct g as [[]|]; try contradiction; reflexivity. Qed.
Lemma uses_newton_mapping : forall g, uses_newton g -> has_mapping g.
Proof. intros g U. destruct g as [[]|]; try contradiction; exact I. Qed.

Lemma iterate_length : forall g nodes q k p, has_mapping g -> are_nodes_of g nodes -> length q = dimension (base g) ->
  newton_iterate (phys_transform g nodes) (phys_jacobian g nodes) q (zero_point (dimension (base g))) k p ->
  forall c, phys_transform g nodes p = Some c -> length c = dimension (base g).
Proof.
  intros g nodes q k p G H L It c E.
  assert (Lp : length p = dimension (base g)).
  { destruct (Nat.eq_dec (length p) (dimension (base g))) as [e|ne]; [exact e|].
    exfalso. clear It. destruct H as [Hn Hf].
    assert (V : forall n d, length p <> d -> valid n d nodes p = false).
    { intros n d Hd. unfold valid. apply Nat.eqb_neq in Hd. rewrite Hd. apply andb_false_r. }
    each_geometry g G; cbn [base dimension] in ne;
      try (cbn in E; unfold square_transform, cube_transform, hypercube_transform, simplex_transform,
        pyramid_transform, prism_transform, triangle2_transform, tetrahedron2_transform in E;
        rewrite (V _ _ ne) in E; discriminate E).
    cbn in E. unfold line_transform in E.
    destruct nodes as [|[|a [|]] [|[|b [|]] [|]]]; try discriminate E.
    destruct p as [|x [|]]; try discriminate E. apply ne. reflexivity. }
  destruct (transform_value g nodes p G H Lp) as (q' & E' & Lq & _).
  rewrite E in E'. injection E' as ->. exact Lq.
Qed.

Lemma newton_result : forall fuel g nodes q p, uses_newton g -> are_nodes_of g nodes -> length q = dimension (base g) ->
  phys_inverse fuel g nodes q = Some (At p) ->
  close_enough g nodes p q \/
  (newton_iterate (phys_transform g nodes) (phys_jacobian g nodes) q (zero_point (dimension (base g))) 100 p /\
   ~ close_enough g nodes p q).
Proof.
  intros fuel g nodes q p U H L E. rewrite uses_newton_inverse in E by exact U. unfold newton_inverse in E.
  destruct (phys_transform g nodes (zero_point (dimension (base g)))) as [c0|] eqn:E0; [|discriminate E].
  destruct (newton_loop _ _ _ _ _ _ _) as [[r n]|] eqn:EL; [|discriminate E].
  destruct (newton_loop_ok _ _ _ (zero_point (dimension (base g))) _ _ _ _ _ _ EL E0) as (c & Ec & Hn & H1 & H2);
    [constructor|].
  destruct (Nat.eqb_spec n 100) as [En|En]; [discriminate E|]. injection E as <-.
  destruct (Nat.leb_spec n 100) as [Hle|Hgt].
  - left. destruct H1 as [H1 It]; [lia|].
    assert (Lc := iterate_length _ _ _ _ _ (uses_newton_mapping _ U) H L It _ Ec).
    exists c. split; [exact Ec|]. rewrite <- norm_vsub by congruence. exact H1.
  - right. destruct H2 as [H2 It]; [lia|]. split; [exact It|].
    assert (Lc := iterate_length _ _ _ _ _ (uses_newton_mapping _ U) H L It _ Ec).
    intros (c' & Ec' & D). rewrite Ec in Ec'. injection Ec' as <-. rewrite <- norm_vsub in D by congruence. lra.
Qed.

Lemma newton_nan : forall fuel g nodes q, uses_newton g -> are_nodes_of g nodes -> length q = dimension (base g) ->
  phys_inverse fuel g nodes q = Some NotANumber ->
  exists p, newton_iterate (phys_transform g nodes) (phys_jacobian g nodes) q (zero_point (dimension (base g))) 100 p /\
   close_enough g nodes p q.
Proof.
  intros fuel g nodes q U H L E. rewrite uses_newton_inverse in E by exact U. unfold newton_inverse in E.
  destruct (phys_transform g nodes (zero_point (dimension (base g)))) as [c0|] eqn:E0; [|discriminate E].
  destruct (newton_loop _ _ _ _ _ _ _) as [[r n]|] eqn:EL; [|discriminate E].
  destruct (newton_loop_ok _ _ _ (zero_point (dimension (base g))) _ _ _ _ _ _ EL E0) as (c & Ec & Hn & H1 & H2);
    [constructor|].
  destruct (Nat.eqb_spec n 100) as [En|En]; [|discriminate E]. subst n.
  destruct H1 as [H1 It]; [lia|].
  assert (Lc := iterate_length _ _ _ _ _ (uses_newton_mapping _ U) H L It _ Ec).
  exists r. split; [exact It|]. exists c. split; [exact Ec|]. rewrite <- norm_vsub by congruence. exact H1.
Qed.

Lemma affine_close : forall g A b p, has_mapping g -> length p = dimension (base g) ->
  close_enough g (map (affine A b (dimension (base g))) (geometry_points g)) p (affine A b (dimension (base g)) p).
Proof.
  intros g A b p G L. eexists. split; [apply affine_reproduced; assumption|].
  rewrite <- norm_vsub by reflexivity.
  assert (Z : forall l, norm_squared (vsub l l) = 0).
  { induction l as [|x l IH]; [reflexivity|]. cbn [vsub norm_squared fold_right]. unfold norm_squared in IH. rewrite IH. ring. }
  rewrite Z. left. apply Rinv_0_lt_compat, pow_lt. lra.
Qed.
Lemma norm_self : forall l, norm_squared (vsub l l) = 0.
Proof.
  induction l as [|x l IH]; [reflexivity|]. cbn [vsub norm_squared fold_right]. unfold norm_squared in IH. rewrite IH. ring.
Qed.
Lemma eps_pos : forall n, 0 < / 10 ^ n.
Proof. intros n. apply Rinv_0_lt_compat, pow_lt. lra. Qed.

Lemma zero_plus : forall d x, (2 <= d <= 4)%nat -> length x = d -> vadd (zero_point d) (vsub x (zero_point d)) = x.
Proof.
  intros d x Hd L. destruct d as [|[|[|[|[|d]]]]]; try lia; points_of_dim; cbn; point_eq ltac:(ring).
Qed.

Lemma newton_affine : forall fuel g A b x, uses_newton g -> invertible A (dimension (base g)) ->
  length x = dimension (base g) ->
  let d := dimension (base g) in let nodes := map (affine A b d) (geometry_points g) in
  exists p, phys_inverse fuel g nodes (affine A b d x) = Some (At p) /\
    close_enough g nodes p (affine A b d x) /\ (p = x \/ p = zero_point d).
Proof.
  intros fuel g A b x U I' L d nodes.
  assert (G := uses_newton_mapping _ U).
  assert (D : (2 <= d <= 4)%nat) by (subst d; destruct g as [[]|]; try contradiction; cbn; lia).
  assert (L0 : length (zero_point d) = d) by apply repeat_length.
  rewrite uses_newton_inverse by exact U. unfold newton_inverse. fold d.
  assert (ET := fun p Lp => affine_reproduced g A b p G Lp). fold d in ET. fold nodes in ET.
  rewrite (ET _ L0).
  assert (EJ : phys_jacobian g nodes (zero_point d) = Some (matrix_of A d)).
  { apply affine_jacobian; [exact G|exact L0|]. intros ->. reflexivity. }
  change 100%nat with (S 99). cbn -[pow Nat.eqb vsub norm_squared].
  destruct (Rlt_dec _ _) as [Hl|Hl].
  - rewrite EJ, solve_affine by assumption. rewrite zero_plus, (ET x L) by assumption.
    exists x. split; [|split; [apply affine_close; assumption|left; reflexivity]].
    cbn -[pow Nat.eqb vsub norm_squared]. rewrite norm_self.
    destruct (Rlt_dec _ 0) as [Hl2|_]; [assert (P := eps_pos 28); lra|]. reflexivity.
  - exists (zero_point d). split; [reflexivity|]. split; [|right; reflexivity].
    exists (affine A b d (zero_point d)). split; [apply ET, L0|].
    rewrite <- norm_vsub by (rewrite !affine_length; reflexivity). lra.
Qed.
