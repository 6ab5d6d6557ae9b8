From Coq Require Import List Arith Bool Lia Permutation Reals Lra Field.
From Verif Require Import Loop_model Matrix_model Matrix_spec Matrix_proofs Determinant_model Determinant_spec Determinant_proofs
  RefGeometry_model RefGeometry_spec RefGeometry_proofs Curvilinear_model PhysMapping_model PhysMapping_spec
  PhysMapping_proofs PhysInverse_proofs FaceGeometry_model FaceGeometry_spec.
Import ListNotations.
Local Open Scope R_scope.
Arguments Rabs : simpl never.

(** ** C25 *)
Definition face_coordinates (s : shape) (f : nat) (q : point) : point :=
  match s, f, q with
  | Triangle, 0%nat, [x;y] => [2*x - 1] | Triangle, 1%nat, [x;y] => [2*y - 1] | Triangle, 2%nat, [x;y] => [2*y - 1]
  | Square, 0%nat, [x;y] => [x] | Square, 1%nat, [x;y] => [y] | Square, 2%nat, [x;y] => [y] | Square, 3%nat, [x;y] => [x]
  | Tetrahedron, 0%nat, [x;y;z] => [z;y] | Tetrahedron, 1%nat, [x;y;z] => [x;z]
  | Tetrahedron, 2%nat, [x;y;z] => [y;x] | Tetrahedron, 3%nat, [x;y;z] => [y;z]
  | Pyramid, 0%nat, [x;y;z] => [x;-y] | Pyramid, 1%nat, [x;y;z] => [(1 - y - z)/2; z] | Pyramid, 2%nat, [x;y;z] => [(1 + y - z)/2; z]
  | Pyramid, 3%nat, [x;y;z] => [(1 + x - z)/2; z] | Pyramid, 4%nat, [x;y;z] => [(1 - x - z)/2; z]
  | TriangularPrism, 0%nat, [x;y;z] => [y;x] | TriangularPrism, 1%nat, [x;y;z] => [x;y] | TriangularPrism, 2%nat, [x;y;z] => [1 - 2*y; z]
  | TriangularPrism, 3%nat, [x;y;z] => [2*x - 1; z] | TriangularPrism, 4%nat, [x;y;z] => [2*y - 1; z]
  | Cube, 0%nat, [x;y;z] => [x;y] | Cube, 1%nat, [x;y;z] => [x;z] | Cube, 2%nat, [x;y;z] => [y;z]
  | Cube, 3%nat, [x;y;z] => [y;z] | Cube, 4%nat, [x;y;z] => [x;z] | Cube, 5%nat, [x;y;z] => [x;y]
  | Hypercube, 0%nat, [x;y;z;w] => [x;y;z] | Hypercube, 1%nat, [x;y;z;w] => [x;y;w] | Hypercube, 2%nat, [x;y;z;w] => [x;z;w]
  | Hypercube, 3%nat, [x;y;z;w] => [y;z;w] | Hypercube, 4%nat, [x;y;z;w] => [y;z;w] | Hypercube, 5%nat, [x;y;z;w] => [x;z;w]
  | Hypercube, 6%nat, [x;y;z;w] => [x;y;w] | Hypercube, 7%nat, [x;y;z;w] => [x;y;z]
  | _, _, _ => []
  end.

Lemma reference_normal : forall s f m fs ns p x j1 w, the_face s f m fs ns -> internal fs p -> transform m p = Some x ->
  calcJacobian m p = Some j1 -> computeWedgeStuffVector Rplus Rmult Rminus Ropp j1 = Some w ->
  forall y, internal s y ->
  let c := outwardNormalSign m * inner_product w (difference y x) in
  c <= 0 /\ (c = 0 -> internal fs (face_coordinates s f y) /\ transform m (face_coordinates s f y) = Some y) /\
  (forall eta, transform m eta = Some y -> c = 0).
Proof.
  unfold internal. intros s f m fs ns p x j1 w (Hm & Hf & Hn) Ip Hx HJ Hw y Iy.
  assert (Lp := internal_length _ _ _ Ip). assert (Ly := internal_length _ _ _ Iy).
  each_face s f Hm; cbn in Hf, Hn; injs;
    cbn [dimension] in Lp, Ly; points_of_dim; cbn in Hx, HJ; injs; cbn in Hw; try discriminate Hw; injs;
    cbn in Ip, Iy; unfold inner_product, difference; cbn -[face_coordinates];
    injection Ip as Ip; injection Iy as Iy; conjs.
  all: split; [abs_cases; lra|split].
  all: try (intros eta He; destruct eta as [|a [|b [|c [|d eta]]]]; cbn in He; try discriminate He; injection He; intros; subst; lra).
  all: intros E; split; cbn; [apply f_equal; repeat (apply andb_true_iff; split); apply leb_true; abs_cases; lra
                             |point_eq ltac:(abs_cases; lra)].
Qed.

Definition tangent (e t : nat -> nat -> R) (d : nat) (i k : nat) : R := sum (map (fun l => e i l * t l k) (seq 0 d)).

Lemma bigsum_sum : forall d f, (d <= 4)%nat -> bigsum 0 Rplus d f = sum (map f (seq 0 d)).
Proof. intros d f H. enum 5%nat d; try lia; unfold bigsum; cbn; ring. Qed.

Lemma inner_scaled : forall c (w : nat -> R) v d, (d <= 4)%nat ->
  inner_product (scale c (map w (seq 0 d))) (map v (seq 0 d)) = c * inner 0 Rplus Rmult d w v.
Proof. intros c w v d H. enum 5%nat d; try lia; unfold inner_product, inner; cbn; ring. Qed.
Lemma inner_difference : forall (w : nat -> R) y x d, (d <= 4)%nat -> length y = d ->
  inner_product (map w (seq 0 d)) (difference y x) = inner 0 Rplus Rmult d w (fun l => nth l y 0 - nth l x 0).
Proof. intros w y x d H L. enum 5%nat d; try lia; points_of_dim; unfold inner_product, difference, inner; cbn; ring. Qed.
Lemma inner_ext : forall w v v' d, (forall i, (i < d)%nat -> v i = v' i) ->
  inner 0 Rplus Rmult d w v = inner 0 Rplus Rmult d w v'.
Proof.
  intros w v v' d H. unfold inner. f_equal. apply map_ext_in. intros i Hi. apply in_seq in Hi. rewrite H by lia. reflexivity.
Qed.

Lemma face_facts : forall s f m fs ns, the_face s f m fs ns -> S (dimension fs) = dimension s /\
  (outwardNormalSign m = 1 \/ outwardNormalSign m = -1) /\ (dimension s <= 4)%nat.
Proof.
  intros s f m fs ns (Hm & Hf & Hn). each_face s f Hm; cbn in Hf; injs; cbn; (split; [reflexivity|split; [lra|lia]]).
Qed.

(** the normal vector as the code computes it, two or more dimensions *)
Lemma normal_computed : forall g nodes f m fs ns p x J e j1 t, the_face (base g) f m fs ns ->
  (2 <= dimension (base g))%nat -> transform m p = Some x ->
  phys_jacobian g nodes x = Some J -> is_matrix J (dimension (base g)) (dimension (base g)) e ->
  calcJacobian m p = Some j1 -> is_matrix j1 (dimension (base g)) (dimension fs) t ->
  exists j3 w', mmul 0 1 Rplus Rmult J j1 = Some j3 /\
    is_matrix j3 (dimension (base g)) (dimension fs) (fun i j => bigsum 0 Rplus (dimension (base g)) (fun l => e i l * t l j)) /\
    computeWedgeStuffVector Rplus Rmult Rminus Ropp j3 = Some (map w' (seq 0 (dimension (base g)))) /\
    getNormalVector g nodes f p =
      Some (scale ((if Rlt_dec 0 (leibniz 0 1 Rplus Rmult Ropp (dimension (base g)) e) then 1 else -1) * outwardNormalSign m)
              (map w' (seq 0 (dimension (base g))))).
Proof.
  intros g nodes f m fs ns p x J e j1 t Hf D2 Hx HJ MJ H1 M1.
  destruct (face_facts _ _ _ _ _ Hf) as (Df & _ & D4). remember (dimension (base g)) as d eqn:Hd.
  assert (Ed : dimension fs = (d - 1)%nat) by lia. rewrite Ed in *.
  destruct (mmul_ok 0 1 Rplus Rmult Rmult_1_l J j1 d d (d - 1) e t MJ M1) as (j3 & E3 & M3); [lia|].
  assert (W := wedge_ok 0 1 Rplus Rmult Rminus Ropp RTheory j3 d _ M3 ltac:(lia)).
  eexists j3, _. split; [exact E3|]. split; [exact M3|]. split; [exact W|].
  destruct Hf as (Hm & _). unfold getNormalVector, mapRefFaceToRefElem, codim1_mapping.
  rewrite Hm, <- Hd. cbn [bind]. destruct (Nat.eqb_spec d 1) as [Z|_]; [lia|].
  rewrite H1, Hx. cbn [bind]. rewrite HJ. cbn [bind]. rewrite E3. cbn [bind]. rewrite W. cbn [bind].
  unfold rdet. rewrite (determinant_ok 0 1 Rplus Rmult Rminus Ropp RTheory J d e MJ ltac:(lia)). reflexivity.
Qed.

Lemma sign_det : forall det, det <> 0 -> (if Rlt_dec 0 det then 1 else -1) * det = Rabs det.
Proof. intros det H. unfold Rabs. destruct (Rlt_dec 0 det), (Rcase_abs det); lra. Qed.

Lemma line_normal : forall g nodes f m fs ns p x J e, the_face (base g) f m fs ns ->
  dimension (base g) = 1%nat -> transform m p = Some x ->
  phys_jacobian g nodes x = Some J -> is_matrix J (dimension (base g)) (dimension (base g)) e ->
  exists a, (a = 1 \/ a = -1) /\ (fs = Point /\ base g = Line /\ p = [] /\ x = [a] /\ transform m [] = Some [a]) /\
  getNormalVector g nodes f p = Some [a * (if Rlt_dec 0 (e 0%nat 0%nat) then 1 else -1)].
Proof.
  intros g nodes f m fs ns p x J e Hf D Hx HJ MJ.
  assert (B : base g = Line) by (destruct (base g); cbn in D; try discriminate D; reflexivity).
  assert (J0 : nth_error (data J) 0 = Some (e 0%nat 0%nat)).
  { rewrite D in MJ. destruct MJ as (R & C & _ & E). specialize (E 0%nat 0%nat). unfold mget in E. rewrite R, C in E.
    cbn in E. rewrite Nat.mul_0_r in E || idtac. exact E. }
  destruct Hf as (Hm & Hf & Hn).
  assert (G : exists a, (a = 1 \/ a = -1) /\ fs = Point /\ p = [] /\ x = [a] /\ transform m [] = Some [a]).
  { rewrite B in *. enum 3%nat f; cbn in Hm; try discriminate Hm; cbn in Hf; injs;
      destruct p as [|? ?]; cbn in Hx; try discriminate Hx; injs; eexists; repeat split; try reflexivity; auto. }
  destruct G as (a & Ha & -> & -> & -> & T). exists a. split; [exact Ha|]. split; [auto 6|].
  unfold getNormalVector, mapRefFaceToRefElem, codim1_mapping. rewrite Hm, D. cbn [bind Nat.eqb]. rewrite Hx. cbn [bind]. rewrite HJ. cbn [bind].
  change (nth_error [a] 0) with (Some a). cbn [bind]. rewrite J0. reflexivity.
Qed.

Lemma normal_outward : forall g nodes f m fs ns p x J e, the_face (base g) f m fs ns ->
  internal fs p -> transform m p = Some x ->
  phys_jacobian g nodes x = Some J -> is_matrix J (dimension (base g)) (dimension (base g)) e ->
  leibniz 0 1 Rplus Rmult Ropp (dimension (base g)) e <> 0 ->
  exists n, getNormalVector g nodes f p = Some n /\ length n = dimension (base g) /\
  forall y, internal (base g) y ->
    inner_product n (velocity e (dimension (base g)) x y) <= 0 /\
    (inner_product n (velocity e (dimension (base g)) x y) = 0 <-> on_face (base g) f y).
Proof.
  intros g nodes f m fs ns p x J e Hf Ip Hx HJ MJ HD.
  assert (Lp := internal_length _ _ _ Ip).
  destruct (face_jacobian _ _ _ _ _ Hf p Lp) as (j1 & H1 & t & M1 & _).
  destruct (face_facts _ _ _ _ _ Hf) as (Df & Hs & D4).
  destruct (le_lt_dec 2 (dimension (base g))) as [D2|D2].
  - destruct (normal_computed _ _ _ _ _ _ _ _ _ _ _ _ Hf D2 Hx HJ MJ H1 M1) as (j3 & w' & E3 & M3 & W3 & HN).
    eexists. split; [exact HN|]. split; [unfold scale; rewrite !map_length, seq_length; reflexivity|].
    intros y Iy. assert (Ly := internal_length _ _ _ Iy).
    assert (M1' : is_matrix j1 (dimension (base g)) (dimension (base g) - 1) t)
      by (replace (dimension (base g) - 1)%nat with (dimension fs) by lia; exact M1).
    destruct (wedge_mapped 0 1 Rplus Rmult Rminus Ropp RTheory J j1 j3 _ e t (fun l => nth l y 0 - nth l x 0) MJ M1' ltac:(lia) E3)
      as (det & w & w2 & Hdet & W1 & W2 & Hin).
    rewrite W3 in W2. injection W2 as W2.
    rewrite (determinant_ok 0 1 Rplus Rmult Rminus Ropp RTheory J _ e MJ D4) in Hdet. injection Hdet as Hdet.
    destruct (reference_normal _ _ _ _ _ _ _ _ _ Hf Ip Hx H1 W1 y Iy) as (C1 & C2 & C3). cbv zeta in C1, C2, C3.
    rewrite inner_difference in C1, C2, C3 by assumption.
    set (c := outwardNormalSign m * inner 0 Rplus Rmult (dimension (base g)) w (fun l => nth l y 0 - nth l x 0)) in *.
    assert (V : inner_product (scale ((if Rlt_dec 0 (leibniz 0 1 Rplus Rmult Ropp (dimension (base g)) e) then 1 else -1)
                  * outwardNormalSign m) (map w' (seq 0 (dimension (base g))))) (velocity e (dimension (base g)) x y)
                = Rabs det * c).
    { rewrite Hdet in *. unfold velocity. rewrite W2, inner_scaled by exact D4.
      rewrite (inner_ext _ _ (fun i => bigsum 0 Rplus (dimension (base g)) (fun l => e i l * (nth l y 0 - nth l x 0)))).
      - rewrite Hin, <- (sign_det det HD). unfold c. ring.
      - intros i Hi. rewrite bigsum_sum by exact D4. reflexivity. }
    rewrite V. assert (P : 0 < Rabs det) by (apply Rabs_pos_lt; rewrite <- Hdet; exact HD).
    split; [|split].
    + assert (0 <= Rabs det * - c); [|lra]. apply Rmult_le_pos; lra.
    + intros Z. apply Rmult_integral in Z. destruct Z as [Z|Z]; [lra|].
      destruct (C2 Z) as (I & T). exists m, fs, ns. eexists. split; [exact Hf|]. split; [exact I|exact T].
    + intros (m' & fs' & ns' & eta & Hf' & I & T).
      assert (m' = m) by (destruct Hf, Hf'; congruence). subst m'. rewrite (C3 eta T). ring.
  - destruct (line_normal _ _ _ _ _ _ _ _ _ _ Hf ltac:(lia) Hx HJ MJ) as (a & Ha & Ef & HN).
    assert (D1 : dimension (base g) = 1%nat) by lia. rewrite D1 in *.
    exists [a * (if Rlt_dec 0 (e 0%nat 0%nat) then 1 else -1)].
    split; [exact HN|]. split; [reflexivity|].
    assert (E : leibniz 0 1 Rplus Rmult Ropp 1 e = e 0%nat 0%nat) by (cbn; ring). rewrite E in HD.
    intros y Iy. destruct Ef as (-> & B & Ex & -> & C).
    unfold internal in Iy. rewrite B in *. assert (Ly := internal_length _ _ _ Iy). cbn [dimension] in Ly. points_of_dim.
    cbn in Iy. injection Iy as Iy. conjs.
    assert (V : inner_product [a * (if Rlt_dec 0 (e 0%nat 0%nat) then 1 else -1)] (velocity e 1 [a] [r])
              = Rabs (e 0%nat 0%nat) * (a * (r - a))).
    { rewrite <- (sign_det _ HD). unfold inner_product, velocity. cbn -[Rlt_dec]. ring. }
    rewrite V. assert (P := Rabs_pos_lt _ HD). split; [|split].
    + assert (0 <= Rabs (e 0%nat 0%nat) * - (a * (r - a))); [|lra].
      apply Rmult_le_pos; [lra|]. destruct Ha; subst a; lra.
    + intros Z. apply Rmult_integral in Z. destruct Z as [Z|Z]; [lra|].
      assert (r = a) by (destruct Ha; subst a; lra). subst r.
      exists m, Point, ns, []. split; [exact Hf|]. split; [reflexivity|exact C].
    + intros (m' & fs' & ns' & eta & Hf' & I & T).
      assert (m' = m) by (destruct Hf, Hf'; congruence). subst m'.
      destruct Hf' as (_ & G & _). destruct Hf as (_ & G' & _). rewrite G' in G. injection G as <-.
      assert (Le := internal_length _ _ _ I). cbn [dimension] in Le. points_of_dim.
      rewrite C in T. injection T as T. subst. ring.
Qed.

(** the length of the normal vector *)
Lemma lagrange : forall n t, (2 <= n <= 4)%nat ->
  forall c, c * c = 1 ->
  inner_product (scale c (map (fun i => leibniz 0 1 Rplus Rmult Ropp n (augmented (n - 1) t (unit_vector 0 1 i))) (seq 0 n)))
                (scale c (map (fun i => leibniz 0 1 Rplus Rmult Ropp n (augmented (n - 1) t (unit_vector 0 1 i))) (seq 0 n)))
  = gram_determinant t n (n - 1).
Proof.
  intros n t H c Hc. transitivity (c * c * gram_determinant t n (n - 1)); [|rewrite Hc; ring]. clear Hc.
  enum 5%nat n; try lia; unfold gram_determinant, inner_product, scale; cbn; ring.
Qed.

Lemma gram_ext : forall t t' d c, (d <= 4)%nat -> (c <= 4)%nat -> (forall i k, (i < d)%nat -> (k < c)%nat -> t i k = t' i k) ->
  gram_determinant t d c = gram_determinant t' d c.
Proof.
  intros t t' d c Hd Hc H. unfold gram_determinant. apply leib_ext; [|exact Hc].
  intros i k Hi Hk. f_equal. apply map_ext_in. intros l Hl. apply in_seq in Hl. rewrite !H by lia. reflexivity.
Qed.

Lemma normal_length : forall g nodes f m fs ns p x J e j1 t, the_face (base g) f m fs ns ->
  internal fs p -> transform m p = Some x ->
  phys_jacobian g nodes x = Some J -> is_matrix J (dimension (base g)) (dimension (base g)) e ->
  calcJacobian m p = Some j1 -> is_matrix j1 (dimension (base g)) (dimension fs) t ->
  exists n, getNormalVector g nodes f p = Some n /\
  inner_product n n = gram_determinant (fun i k => sum (map (fun l => e i l * t l k) (seq 0 (dimension (base g)))))
                        (dimension (base g)) (dimension fs).
Proof.
  intros g nodes f m fs ns p x J e j1 t Hf Ip Hx HJ MJ H1 M1.
  destruct (face_facts _ _ _ _ _ Hf) as (Df & Hs & D4).
  destruct (le_lt_dec 2 (dimension (base g))) as [D2|D2].
  - destruct (normal_computed _ _ _ _ _ _ _ _ _ _ _ _ Hf D2 Hx HJ MJ H1 M1) as (j3 & w' & E3 & M3 & W3 & HN).
    eexists. split; [exact HN|].
    replace (dimension fs) with (dimension (base g) - 1)%nat in * by lia.
    rewrite (wedge_ok 0 1 Rplus Rmult Rminus Ropp RTheory j3 _ _ M3 ltac:(lia)) in W3. injection W3 as W3. rewrite <- W3.
    etransitivity; [apply lagrange; [lia|destruct (Rlt_dec _ _), Hs as [-> | ->]; ring]|].
    apply gram_ext; [lia|lia|]. intros i k Hi Hk. apply bigsum_sum. exact D4.
  - destruct (line_normal _ _ _ _ _ _ _ _ _ _ Hf ltac:(lia) Hx HJ MJ) as (a & Ha & Ef & HN).
    eexists. split; [exact HN|]. destruct Ef as (-> & B & _). rewrite B. unfold gram_determinant, inner_product. cbn -[Rlt_dec].
    destruct (Rlt_dec _ _), Ha; subst a; ring.
Qed.

Lemma velocity_affine : forall A b d x y, (d <= 4)%nat -> length x = d -> length y = d ->
  velocity A d x y = difference (affine A b d y) (affine A b d x).
Proof.
  intros A b d x y H Lx Ly. enum 5%nat d; try lia; points_of_dim; unfold velocity, difference, affine; cbn; point_eq ltac:(ring).
Qed.
Lemma normal_affine : forall g A b f m fs ns p x, has_mapping g -> g <> Base Pyramid -> invertible A (dimension (base g)) ->
  the_face (base g) f m fs ns -> internal fs p -> transform m p = Some x ->
  let nodes := map (affine A b (dimension (base g))) (geometry_points g) in
  exists n X, getNormalVector g nodes f p = Some n /\ phys_transform g nodes x = Some X /\
  forall y, internal (base g) y -> exists Y, phys_transform g nodes y = Some Y /\
    inner_product n (difference Y X) <= 0 /\ (inner_product n (difference Y X) = 0 <-> on_face (base g) f y).
Proof.
  intros g A b f m fs ns p x G G5 HA Hf Ip Hx nodes.
  destruct (face_facts _ _ _ _ _ Hf) as (_ & _ & D4).
  assert (Lx : length x = dimension (base g)).
  { destruct (face_defined _ _ _ _ _ Hf p (internal_length _ _ _ Ip)) as (x' & E & L). congruence. }
  destruct (normal_outward g nodes f m fs ns p x _ A Hf Ip Hx
    (affine_jacobian g A b x G Lx ltac:(intros; contradiction)) (matrix_of_entries A _ D4) HA) as (n & HN & _ & K).
  exists n. eexists. split; [exact HN|]. split; [apply affine_reproduced; assumption|].
  intros y Iy. assert (Ly := internal_length _ _ _ Iy). eexists. split; [apply affine_reproduced; assumption|].
  rewrite <- velocity_affine by assumption. apply K. exact Iy.
Qed.

(** ** diameters *)
Lemma largest_from_ok : forall p rest r, r <= largest_from p rest r /\
  (forall q, In q rest -> norm_squared (vsub p q) <= largest_from p rest r) /\
  (largest_from p rest r = r \/ exists q, In q rest /\ largest_from p rest r = norm_squared (vsub p q)).
Proof.
  intros p rest. induction rest as [|q rest IH]; intros r; cbn [largest_from].
  - split; [lra|]. split; [intros q []|left; reflexivity].
  - destruct (IH (Rmax r (norm_squared (vsub p q)))) as (H1 & H2 & H3).
    assert (M1 := Rmax_l r (norm_squared (vsub p q))). assert (M2 := Rmax_r r (norm_squared (vsub p q))).
    split; [lra|]. split.
    + intros q' [<-|H]; [lra|apply H2, H].
    + destruct H3 as [H3|(q' & I & H3)]; [|right; exists q'; split; [right; exact I|exact H3]].
      rewrite H3. unfold Rmax. destruct (Rle_dec _ _); [right; exists q; split; [left; reflexivity|reflexivity]|left; reflexivity].
Qed.
Lemma largest_pair_ok : forall ps r, r <= largest_pair ps r /\
  (forall i j p q, (i < j)%nat -> nth_error ps i = Some p -> nth_error ps j = Some q ->
     norm_squared (vsub p q) <= largest_pair ps r) /\
  (largest_pair ps r = r \/ exists i j p q, (i < j)%nat /\ nth_error ps i = Some p /\ nth_error ps j = Some q /\
     largest_pair ps r = norm_squared (vsub p q)).
Proof.
  induction ps as [|p ps IH]; intros r; cbn [largest_pair].
  - split; [lra|]. split; [intros [|i] j p q _ H; discriminate H|left; reflexivity].
  - destruct (IH (largest_from p ps r)) as (H1 & H2 & H3). destruct (largest_from_ok p ps r) as (F1 & F2 & F3).
    split; [lra|]. split.
    + intros [|i] [|j] a b Hij Ha Hb; try lia; cbn in Ha, Hb.
      * injection Ha as <-. apply Rle_trans with (largest_from p ps r); [apply F2, nth_error_In with j, Hb|exact H1].
      * apply (H2 i j); [lia|exact Ha|exact Hb].
    + destruct H3 as [H3|(i & j & a & b & Hij & Ha & Hb & H3)].
      * destruct F3 as [F3|(q & I & F3)]; [left; congruence|]. right. apply In_nth_error in I. destruct I as (j & Hj).
        exists 0%nat, (S j), p, q. split; [lia|]. split; [reflexivity|]. split; [exact Hj|]. congruence.
      * right. exists (S i), (S j), a, b. split; [lia|]. split; [exact Ha|]. split; [exact Hb|exact H3].
Qed.
Lemma look_up_ok : forall l ps, (forall k, In k l -> (k < length ps)%nat) ->
  look_up l ps = Some (map (fun k => nth k ps []) l).
Proof.
  induction l as [|k l IH]; intros ps H; [reflexivity|]. cbn [look_up map].
  rewrite (nth_error_nth' ps [] (H k (or_introl eq_refl))). cbn [bind].
  rewrite IH by (intros j Hj; apply H; right; exact Hj). reflexivity.
Qed.
Lemma distance_sym : forall p q, length p = length q -> distance2 p q = distance2 q p.
Proof.
  intros p q H. unfold distance2. rewrite H. f_equal. apply map_ext. intros i. ring.
Qed.
Lemma distance_nonneg : forall p q, 0 <= distance2 p q.
Proof.
  intros p q. unfold distance2, sum. generalize (seq 0 (length p)). intros l.
  induction l as [|i l IH]; cbn; [lra|]. assert (0 <= (nth i p 0 - nth i q 0) ^ 2) by apply pow2_ge_0. cbn in *. lra.
Qed.
Lemma distance_self : forall p, distance2 p p = 0.
Proof.
  intros p. unfold distance2, sum. generalize (seq 0 (length p)). intros l. induction l as [|i l IH]; cbn; [reflexivity|].
  cbn in IH. rewrite IH. ring.
Qed.

Lemma diameter_ok : forall E f ns, are_nodes_of (geom E) (coordinates E) -> codim1_indices (geom E) f = Some ns ->
  (2 <= dimension (base (geom E)) <= 4)%nat -> (1 < length ns)%nat -> (forall a, In a ns -> (a < length (coordinates E))%nat) ->
  exists d, computeDiameter E f = Some d /\
  (forall a b, In a ns -> In b ns -> sqrt (distance2 (nth a (coordinates E) []) (nth b (coordinates E) [])) <= d) /\
  exists a b, In a ns /\ In b ns /\ d = sqrt (distance2 (nth a (coordinates E) []) (nth b (coordinates E) [])).
Proof.
  intros E f ns [_ HF] Hn D L B.
  set (ps := map (fun k => nth k (coordinates E) []) ns).
  assert (HD : computeDiameter E f = Some (sqrt (largest_pair ps 0))).
  { unfold computeDiameter. rewrite Hn. cbn [bind]. rewrite (look_up_ok _ _ B). cbn [bind]. fold ps.
    assert (Hps : exists p r, ps = p :: r) by (unfold ps; destruct ns as [|x ns]; [cbn in L; lia|cbn; eauto]).
    destruct Hps as (p & r & ->). destruct (dimension (base (geom E))) as [|[|[|[|[|d]]]]]; try lia; reflexivity. }
  assert (Len : forall a, In a ns -> length (nth a (coordinates E) []) = dimension (base (geom E))).
  { intros a Ha. rewrite Forall_forall in HF. apply HF, nth_In, B, Ha. }
  assert (N : forall a b, In a ns -> In b ns ->
    norm_squared (vsub (nth a (coordinates E) []) (nth b (coordinates E) [])) = distance2 (nth a (coordinates E) []) (nth b (coordinates E) [])).
  { intros a b Ha Hb. apply norm_vsub. rewrite !Len by assumption. reflexivity. }
  assert (P : forall k a, nth_error ns k = Some a -> nth_error ps k = Some (nth a (coordinates E) [])).
  { intros k a Hk. unfold ps. rewrite nth_error_map, Hk. reflexivity. }
  destruct (largest_pair_ok ps 0) as (H0 & H1 & H2).
  assert (Up : forall a b, In a ns -> In b ns -> distance2 (nth a (coordinates E) []) (nth b (coordinates E) []) <= largest_pair ps 0).
  { intros a b Ha Hb. destruct (In_nth_error _ _ Ha) as (i & Hi). destruct (In_nth_error _ _ Hb) as (j & Hj).
    destruct (lt_eq_lt_dec i j) as [[Hij|Hij]|Hij].
    - rewrite <- N by assumption. apply (H1 i j); auto.
    - subst j. rewrite Hi in Hj. injection Hj as <-. rewrite distance_self. exact H0.
    - rewrite distance_sym by (rewrite !Len by assumption; reflexivity). rewrite <- N by assumption. apply (H1 j i); auto. }
  eexists. split; [exact HD|]. split; [intros a b Ha Hb; apply sqrt_le_1_alt, Up; assumption|].
  destruct H2 as [H2|(i & j & p & q & Hij & Hp & Hq & H2)].
  - destruct ns as [|a [|b ns]]; try (cbn in L; lia). exists a, b. split; [left; reflexivity|]. split; [right; left; reflexivity|].
    f_equal. apply Rle_antisym; [rewrite H2; apply distance_nonneg|apply Up; cbn; auto].
  - unfold ps in Hp, Hq. rewrite nth_error_map in Hp, Hq.
    destruct (nth_error ns i) as [a|] eqn:Ha; [|discriminate Hp]. destruct (nth_error ns j) as [b|] eqn:Hb; [|discriminate Hq].
    cbn in Hp, Hq. injection Hp as <-. injection Hq as <-.
    apply nth_error_In in Ha. apply nth_error_In in Hb. exists a, b. split; [exact Ha|]. split; [exact Hb|].
    rewrite H2, N by assumption. reflexivity.
Qed.
Lemma diameter_1d : forall E f, dimension (base (geom E)) = 1%nat -> computeDiameter E f = Some 1.
Proof. intros E f H. unfold computeDiameter. rewrite H. reflexivity. Qed.
(** matrix of a mirrored triangle *)
Definition mirrored (i j : nat) : R :=
  match i, j with 0%nat, 0%nat => -1 | 0%nat, 1%nat => 0 | 1%nat, 0%nat => 0 | 1%nat, 1%nat => 2 | _, _ => 0 end.
