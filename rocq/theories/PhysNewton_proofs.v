From Coq Require Import List Arith Bool Lia Permutation Reals Lra Field.
From Verif Require Import Loop_model Matrix_model Matrix_spec Determinant_model Determinant_spec Determinant_proofs
  Derivative RefGeometry_model RefGeometry_spec RefGeometry_proofs Curvilinear_model PhysMapping_model PhysMapping_spec
  PhysMapping_proofs PhysInverse_proofs.
Import ListNotations.
Local Open Scope R_scope.

(** ** quadratic elements with straight sides *)
Lemma vsub_vsub : forall p q, length p = length q -> vsub p (vsub p q) = q.
Proof.
  induction p as [|x p IH]; intros [|y q] H; try discriminate H; [reflexivity|]. injection H as H.
  cbn [vsub]. apply cons_eq; [ring|apply IH, H].
Qed.
Definition is_quadratic (g : geometry) : Prop := g = Curvilinear Triangle 2 \/ g = Curvilinear Tetrahedron 2.
Lemma quadratic_affine : forall fuel g A b x, is_quadratic g -> invertible A (dimension (base g)) ->
  length x = dimension (base g) ->
  let d := dimension (base g) in let nodes := map (affine A b d) (geometry_points g) in
  phys_inverse (S (S fuel)) g nodes (affine A b d x) = Some (At x).
Proof.
  intros fuel g A b x Q I' L d nodes.
  assert (G : has_mapping g) by (destruct Q; subst; exact I).
  assert (D : (2 <= d <= 4)%nat) by (subst d; destruct Q; subst; cbn; lia).
  assert (ET := fun p Lp => affine_reproduced g A b p G Lp). fold d in ET. fold nodes in ET.
  assert (EJ : forall p, length p = d -> phys_jacobian g nodes p = Some (matrix_of A d)).
  { intros p Lp. apply affine_jacobian; [exact G|exact Lp|]. destruct Q; subst; discriminate. }
  assert (K : forall r0, length r0 = d ->
    newton_unbounded (phys_transform g nodes) (phys_jacobian g nodes) (affine A b d x) (S (S fuel)) r0 = Some x).
  { intros r0 L0. assert (Z : vsub r0 (vsub r0 x) = x).
    { apply vsub_vsub. rewrite L0, L. reflexivity. }
    remember (S fuel) as f1. cbn -[pow vsub norm_squared]. rewrite (ET r0 L0), (EJ r0 L0), solve_affine by assumption.
    rewrite Z. destruct (Rlt_dec _ _) as [Hl|Hl]; [|reflexivity].
    subst f1. cbn -[pow vsub norm_squared]. rewrite (ET x L), (EJ x L), solve_affine by assumption.
    rewrite norm_self. destruct (Rlt_dec _ 0) as [Hl2|_]; [assert (P := eps_pos 10); lra|].
    apply f_equal, vsub_vsub. reflexivity. }
  unfold phys_inverse. destruct Q as [-> | ->]; rewrite K by reflexivity; reflexivity.
Qed.

(** ** a point far outside of an element, located in its centre *)
Definition trap : list point := [[0; 1]; [2; 3]; [-2; 3]; [0; 9]].
Lemma trap_transform : forall x y, phys_transform (Base Square) trap [x; y] = Some [x - y; (2 + x) * (2 + y)].
Proof. intros. cbn. point_eq ltac:(field). Qed.
Lemma trap_jacobian : forall x y, phys_jacobian (Base Square) trap [x; y] = Some (Mat 2 2 [1; 2 + y; -1; 2 + x]).
Proof. intros. cbn. unfold columns. cbn. apply f_equal, f_equal. point_eq ltac:(field). Qed.
Lemma trap_valid : are_nodes_of (Base Square) trap.
Proof. split; [reflexivity|]. repeat constructor. Qed.

Notation F := (phys_transform (Base Square) trap).
Notation J := (phys_jacobian (Base Square) trap).
Lemma big_residual : / 10 ^ 28 < norm_squared (vsub [0; -12] [0; 4]).
Proof.
  cbn -[pow]. apply Rlt_le_trans with 1; [|lra].
  rewrite <- Rinv_1. apply Rinv_lt_contravar; [rewrite Rmult_1_l; apply pow_lt; lra|]. apply Rlt_pow_R1; [lra|lia].
Qed.
Lemma trap_step : forall l c, newton_loop F J [0; -12] (S (S l)) c [0; 0] [0; 4] =
  newton_loop F J [0; -12] l (S (S c)) [0; 0] [0; 4].
Proof.
  intros l c.
  assert (S1 : solve (Mat 2 2 [1; 2 + 0; -1; 2 + 0]) (vsub [0; -12] [0; 4]) = Some [-4; -4]).
  { unfold solve. cbn -[Req_EM_T]. destruct (Req_EM_T _ 0) as [E|_]; [lra|]. cbn. point_eq ltac:(field). }
  assert (S2 : solve (Mat 2 2 [1; 2 + -4; -1; 2 + -4]) (vsub [0; -12] [0; 4]) = Some [4; 4]).
  { unfold solve. cbn -[Req_EM_T]. destruct (Req_EM_T _ 0) as [E|_]; [lra|]. cbn. point_eq ltac:(field). }
  set (l1 := S l). cbn [newton_loop].
  destruct (Rlt_dec _ _) as [_|N]; [|exfalso; apply N, big_residual].
  rewrite trap_jacobian, S1.
  assert (V1 : vadd [0; 0] [-4; -4] = [-4; -4]) by (cbn; point_eq ltac:(ring)). rewrite V1, trap_transform.
  assert (C1 : [-4 - -4; (2 + -4) * (2 + -4)] = [0; 4]) by (point_eq ltac:(ring)). rewrite C1.
  subst l1. cbn [newton_loop].
  destruct (Rlt_dec _ _) as [_|N]; [|exfalso; apply N, big_residual].
  rewrite trap_jacobian, S2.
  assert (V2 : vadd [-4; -4] [4; 4] = [0; 0]) by (cbn; point_eq ltac:(ring)). rewrite V2, trap_transform.
  assert (C2 : [0 - 0; (2 + 0) * (2 + 0)] = [0; 4]) by (point_eq ltac:(ring)). rewrite C2. reflexivity.
Qed.
Lemma trap_loop : forall k c, newton_loop F J [0; -12] (k + k) c [0; 0] [0; 4] = Some ([0; 0], S (c + (k + k))%nat).
Proof.
  induction k as [|k IH]; intros c.
  - cbn [Nat.add newton_loop]. destruct (Rlt_dec _ _) as [_|N]; [|exfalso; apply N, big_residual].
    apply f_equal, f_equal. lia.
  - replace (S k + S k)%nat with (S (S (k + k))) by lia. rewrite trap_step, IH. apply f_equal, f_equal. lia.
Qed.
Lemma wrong_location : forall fuel,
  let nodes := trap in let q := [0; -12] in let p := [0; 0] in
  are_nodes_of (Base Square) nodes /\
  (forall x, internal Square x -> exists d, jacobian_determinant (Base Square) nodes x d /\ 0 < d) /\
  (forall x, internal Square x -> phys_transform (Base Square) nodes x <> Some q) /\
  phys_inverse fuel (Base Square) nodes q = Some (At p) /\ internal Square p /\
  exists c, phys_transform (Base Square) nodes p = Some c /\ distance2 q c = 256.
Proof.
  intros fuel nodes q p. split; [exact trap_valid|]. split; [|split; [|split; [|split]]].
  - intros x Hx. assert (L := internal_length _ _ _ Hx). cbn in L. points_of_dim.
    unfold internal in Hx. cbn in Hx. injection Hx as Hx. conjs.
    eexists. split.
    + eexists. exists (fun i j => entry (Mat 2 2 [1; 2 + r0; -1; 2 + r]) i j).
      split; [apply trap_jacobian|]. split; [|reflexivity].
      split; [reflexivity|split; [reflexivity|split; [reflexivity|]]].
      intros i j. enum 2%nat i; enum 2%nat j; reflexivity.
    + cbn. lra.
  - intros x Hx. assert (L := internal_length _ _ _ Hx). cbn in L. points_of_dim.
    unfold internal in Hx. cbn in Hx. injection Hx as Hx. conjs.
    unfold nodes. rewrite trap_transform. intros E. injection E as E1 E2.
    assert (0 <= (2 + r) * (2 + r0)) by (apply Rmult_le_pos; lra). lra.
  - rewrite uses_newton_inverse by exact I. unfold newton_inverse.
    cbn [base dimension zero_point repeat]. unfold nodes. rewrite trap_transform.
    assert (C2 : [0 - 0; (2 + 0) * (2 + 0)] = [0; 4]) by (point_eq ltac:(ring)). rewrite C2.
    change 100%nat with (50 + 50)%nat. unfold q. rewrite trap_loop. reflexivity.
  - unfold internal. cbn. unfold leb. repeat destruct (Rle_dec _ _); try lra; reflexivity.
  - unfold nodes, p. rewrite trap_transform. eexists. split; [reflexivity|]. unfold q, distance2. cbn. ring.
Qed.

(** ** a quadratic element for which the iteration does not end *)
Definition bent : list point :=
  map (fun p => match p with [x; y] => [(x + 6667/10000) * (x + 6667/10000); y] | _ => p end)
    [[0;0]; [1/2;0]; [1;0]; [0;1/2]; [1/2;1/2]; [0;1]].
Notation Q2 := (Curvilinear Triangle 2).
Lemma bent_transform : forall x y,
  phys_transform Q2 bent [x; y] = Some [(x + 6667/10000) * (x + 6667/10000); y].
Proof. intros. cbn. point_eq ltac:(field). Qed.
Lemma bent_jacobian : forall x y,
  phys_jacobian Q2 bent [x; y] = Some (Mat 2 2 [2 * (x + 6667/10000); 0; 0; 1]).
Proof. intros. cbn. unfold columns. cbn. apply f_equal, f_equal. point_eq ltac:(field). Qed.
Lemma bent_endless : forall fuel,
  newton_unbounded (phys_transform Q2 bent) (phys_jacobian Q2 bent) [-3; 333/1000] fuel [3333/10000; 333/1000] = None /\
  newton_unbounded (phys_transform Q2 bent) (phys_jacobian Q2 bent) [-3; 333/1000] fuel [3333/10000 - 2; 333/1000] = None.
Proof.
  assert (B : / 10 ^ 10 < 4).
  { apply Rlt_le_trans with 1; [|lra].
    rewrite <- Rinv_1. apply Rinv_lt_contravar; [rewrite Rmult_1_l; apply pow_lt; lra|]. apply Rlt_pow_R1; [lra|lia]. }
  induction fuel as [|fuel [IH1 IH2]]; [split; reflexivity|].
  split.
  - assert (S1 : solve (Mat 2 2 [2 * (3333/10000 + 6667/10000); 0; 0; 1])
      (vsub [(3333/10000 + 6667/10000) * (3333/10000 + 6667/10000); 333/1000] [-3; 333/1000]) = Some [2; 0]).
    { unfold solve. cbn -[Req_EM_T]. destruct (Req_EM_T _ 0) as [E|_]; [lra|]. cbn. point_eq ltac:(field). }
    cbn [newton_unbounded]. rewrite bent_transform, bent_jacobian, S1.
    destruct (Rlt_dec _ _) as [_|N]; [|exfalso; apply N; cbn -[pow]; lra].
    rewrite <- IH2. apply f_equal. cbn. point_eq ltac:(field).
  - assert (S1 : solve (Mat 2 2 [2 * (3333/10000 - 2 + 6667/10000); 0; 0; 1])
      (vsub [(3333/10000 - 2 + 6667/10000) * (3333/10000 - 2 + 6667/10000); 333/1000] [-3; 333/1000]) = Some [-2; 0]).
    { unfold solve. cbn -[Req_EM_T]. destruct (Req_EM_T _ 0) as [E|_]; [lra|]. cbn. point_eq ltac:(field). }
    cbn [newton_unbounded]. rewrite bent_transform, bent_jacobian, S1.
    destruct (Rlt_dec _ _) as [_|N]; [|exfalso; apply N; cbn -[pow]; lra].
    rewrite <- IH1. apply f_equal. cbn. point_eq ltac:(field).
Qed.
Lemma no_end : let nodes := bent in let q := [-3; 333/1000] in
  are_nodes_of Q2 nodes /\
  (forall x, internal Triangle x -> exists d, jacobian_determinant Q2 nodes x d /\ 0 < d) /\
  forall fuel, phys_inverse fuel Q2 nodes q = None.
Proof.
  intros nodes q. split; [split; [reflexivity|repeat constructor]|]. split.
  - intros x Hx. assert (L := internal_length _ _ _ Hx). cbn in L. points_of_dim.
    unfold internal in Hx. cbn in Hx. injection Hx as Hx. conjs.
    eexists. split.
    + eexists. exists (fun i j => entry (Mat 2 2 [2 * (r + 6667/10000); 0; 0; 1]) i j).
      split; [apply bent_jacobian|]. split; [|reflexivity].
      split; [reflexivity|split; [reflexivity|split; [reflexivity|]]].
      intros i j. enum 2%nat i; enum 2%nat j; reflexivity.
    + cbn. lra.
  - intros fuel. unfold phys_inverse. unfold nodes, q. rewrite (proj1 (bent_endless fuel)). reflexivity.
Qed.

(** ** the four-dimensional mapping is only affine *)
Lemma hypercube_not_interpolating :
  let nodes := [1;1;1;1] :: tl (points Hypercube) in
  are_nodes_of (Base Hypercube) nodes /\
  nth_error (points Hypercube) 0 = Some [-1;-1;-1;-1] /\ nth_error nodes 0 = Some [1;1;1;1] /\
  phys_transform (Base Hypercube) nodes [-1;-1;-1;-1] <> Some [1;1;1;1].
Proof.
  intros nodes. split; [split; [reflexivity|repeat constructor]|]. split; [reflexivity|split; [reflexivity|]].
  cbn. intros E. injection E as E _. lra.
Qed.

(** ** the mapping on a face depends on the nodes of the face *)
Lemma faces_depend : forall s f m fs ns nodes nodes', the_face s f m fs ns -> s <> Hypercube ->
  are_nodes_of (Base s) nodes -> are_nodes_of (Base s) nodes' -> agree_on ns nodes nodes' ->
  forall p q, internal fs p -> transform m p = Some q ->
  phys_transform (Base s) nodes q = phys_transform (Base s) nodes' q.
Proof.
  intros s f m fs ns nodes nodes' Hf Hs H H' E p q Ip Hq.
  destruct (face_value _ _ _ _ _ _ Hf Hs H p q Ip Hq) as (r & Er & Lr & Vr).
  destruct (face_value _ _ _ _ _ _ Hf Hs H' p q Ip Hq) as (r' & Er' & Lr' & Vr').
  rewrite Er, Er'. apply f_equal. apply nth_ext with (d := 0) (d' := 0); [congruence|].
  intros i Hi. rewrite Vr, Vr' by lia. apply f_equal. apply map_ext_in. intros k Hk.
  assert (N := E k Hk). apply f_equal2; [|reflexivity].
  destruct (nth_error nodes k) as [a|] eqn:Ea.
  - rewrite (nth_error_nth _ _ _ Ea). symmetry in N. rewrite (nth_error_nth _ _ _ N). reflexivity.
  - symmetry in N. apply nth_error_None in Ea, N. rewrite !nth_overflow by assumption. reflexivity.
Qed.
