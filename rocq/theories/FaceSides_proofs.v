From Coq Require Import List Arith Bool Lia Permutation Reals Lra Field.
From Verif Require Import Matrix_model Matrix_spec
  RefGeometry_model RefGeometry_spec RefGeometry_proofs Curvilinear_model Curvilinear_spec Curvilinear_proofs
  PhysMapping_model PhysMapping_spec PhysMapping_proofs PhysQuadratic_proofs FaceGeometry_model FaceGeometry_spec.
Import ListNotations.
Local Open Scope R_scope.
Arguments Rabs : simpl never.

(** ** C26 *)
(** the interpolating functions of all nodes of a face *)
Definition face_weights (fg : geometry) (p : point) : list R :=
  match fg, p with
  | Base s, _ => weights s p
  | Curvilinear Line 2, [x] => [x*(x-1)/2; 1 - x*x; x*(x+1)/2]
  | Curvilinear Triangle 2, [x;y] =>
      let l := 1 - x - y in [l*(2*l-1); 4*l*x; x*(2*x-1); 4*l*y; 4*x*y; y*(2*y-1)]
  | _, _ => []
  end.
Definition face_geometry (fg : geometry) : Prop :=
  match fg with
  | Base Point | Base Line | Base Triangle | Base Square | Curvilinear Line 2 | Curvilinear Triangle 2 => True
  | _ => False
  end.

Lemma face_weights_sum : forall fg p, face_geometry fg -> length p = dimension (base fg) -> sum (face_weights fg p) = 1.
Proof.
  intros fg p F L. destruct fg as [[]|[] o]; try contradiction F; try (enum 3%nat o; try contradiction F);
    cbn [base dimension] in L; points_of_dim; cbn; field.
Qed.
Lemma face_weights_length : forall fg p, face_geometry fg -> length p = dimension (base fg) ->
  length (face_weights fg p) = length (geometry_points fg).
Proof.
  intros fg p F L. destruct fg as [[]|[] o]; try contradiction F; try (enum 3%nat o; try contradiction F);
    cbn [base dimension] in L; points_of_dim; reflexivity.
Qed.

Lemma face_value_all : forall g f fg, has_mapping g -> g <> Base Hypercube -> codim1_geometry g f = Some fg ->
  face_geometry fg /\ exists m ns, codim1_mapping g f = Some m /\ codim1_indices g f = Some ns /\
  length ns = length (geometry_points fg) /\
  forall nodes, are_nodes_of g nodes -> forall p, internal (base fg) p ->
  exists q r, transform m p = Some q /\ phys_transform g nodes q = Some r /\ length r = dimension (base g) /\
  forall i, (i < dimension (base g))%nat ->
    nth i r 0 = dot (face_weights fg p) (map (fun k => nth i (nth k nodes []) 0) ns).
Proof.
  intros g f fg G H4 Hc. destruct g as [s|s o].
  - cbn in Hc. destruct (getCodim1ReferenceGeometry s f) as [fs|] eqn:Hf; [|discriminate Hc]. injection Hc as <-.
    assert (K := faces_complete s f). rewrite Hf in K.
    destruct (getCodim1MappingPtr s f) as [m|] eqn:Hm; [|contradiction K].
    destruct (getCodim1EntityLocalIndices s f) as [ns|] eqn:Hn; [|contradiction K].
    assert (HF : the_face s f m fs ns) by (split; [exact Hm|split; [exact Hf|exact Hn]]).
    split.
    { clear - HF H4. destruct HF as (Hm & Hf & Hn). each_face s f Hm; cbn in Hf; injs; try exact I; exfalso; apply H4; reflexivity. }
    exists m, ns. split; [exact Hm|]. split; [exact Hn|]. split; [apply K|].
    intros nodes HN p Ip. destruct (face_defined _ _ _ _ _ HF p (internal_length _ _ _ Ip)) as (q & Hq & _).
    destruct (face_value s f m fs ns nodes HF ltac:(congruence) HN p q Ip Hq) as (r & R).
    exists q, r. split; [exact Hq|exact R].
  - assert (Hs : s = Triangle \/ s = Tetrahedron) by (destruct s; try contradiction G; auto).
    assert (o = 2%nat) by (destruct Hs; subst s; enum 3%nat o; try contradiction G; reflexivity). subst o.
    cbn [codim1_geometry] in Hc. destruct (getCodim1ReferenceGeometry s f) as [fs|] eqn:Hf; [|discriminate Hc].
    destruct (getCodim1MappingPtr s f) as [m|] eqn:Hm;
      [|exfalso; destruct Hs; subst s; enum 5%nat f; cbn in Hm, Hf; try discriminate Hm; discriminate Hf].
    assert (Q := quadratic_sides s f m Hs Hm). destruct Hs; subst s.
    all: enum 5%nat f; cbn in Hm, Hf; try discriminate Hm; injs; (split; [exact I|]);
      (do 2 eexists; split; [reflexivity|split; [exact Q|split; [reflexivity|]]]); clear Q;
      intros nodes HN p Ip; assert (Lp := internal_length _ _ _ Ip); cbn [base dimension] in Lp; points_of_dim;
      coordinates_of HN; (do 2 eexists; split; [reflexivity|split; [reflexivity|split; [reflexivity|]]]);
      cbn [base dimension]; intros i Hi; enum 3%nat i; try lia; cbn; field.
Qed.

(** a mapping of the face to itself moves the weights like the nodes *)
Lemma weights_move : forall fg i m p q k1 k2 p1 p2, face_geometry fg -> getCodim0MappingPtr (base fg) i = Some m ->
  length p = dimension (base fg) -> transform m p = Some q ->
  nth_error (geometry_points fg) k1 = Some p1 -> nth_error (geometry_points fg) k2 = Some p2 -> transform m p1 = Some p2 ->
  nth k2 (face_weights fg q) 0 = nth k1 (face_weights fg p) 0.
Proof.
  intros fg i m p q k1 k2 p1 p2 F Hm L T H1 H2 T12.
  destruct fg as [[]|[] o]; try contradiction F; try (enum 3%nat o; try contradiction F);
    cbn [base dimension] in L, Hm; points_of_dim; enum 9%nat i; cbn in Hm; try discriminate Hm; injs;
    cbn in T; injs; enum 7%nat k1; cbn in H1; try discriminate H1; injs; cbn in T12; injs;
    enum 7%nat k2; cbn in H2; try discriminate H2; try (injection H2; intros); try (exfalso; lra); cbn; field.
Qed.

Lemma dot_as_sum : forall (l : list nat) w c (W C : nat -> R), length w = length l -> length c = length l ->
  (forall k id, nth_error l k = Some id -> nth k w 0 = W id /\ nth k c 0 = C id) ->
  dot w c = sum (map (fun id => W id * C id) l).
Proof.
  induction l as [|id l IH]; intros [|x w] [|y c] W C Lw Lc H; try discriminate Lw; try discriminate Lc; [reflexivity|].
  cbn. destruct (H 0%nat id eq_refl) as [<- <-]. cbn. f_equal. apply IH; [cbn in Lw; lia|cbn in Lc; lia|].
  intros k i Hk. exact (H (S k) i Hk).
Qed.
Lemma sum_permutation : forall l l', Permutation l l' -> sum l = sum l'.
Proof. intros l l' P. unfold sum. induction P; cbn; lra. Qed.
Fixpoint position (id : nat) (l : list nat) : nat :=
  match l with [] => O | x :: r => if (x =? id)%nat then O else S (position id r) end.
Lemma position_ok : forall l k id, NoDup l -> nth_error l k = Some id -> position id l = k.
Proof.
  induction l as [|x l IH]; intros k id N H; [destruct k; discriminate H|].
  inversion N as [|? ? N1 N2]; subst. destruct k as [|k]; cbn in H.
  - injection H as <-. cbn. rewrite Nat.eqb_refl. reflexivity.
  - cbn. destruct (Nat.eqb_spec x id) as [->|_]; [exfalso; apply N1; eapply nth_error_In; exact H|]. f_equal. apply IH; assumption.
Qed.
Lemma nth_mapped : forall A (f : A -> R) l k a, nth_error l k = Some a -> nth k (map f l) 0 = f a.
Proof.
  intros A f l k a H. apply nth_error_nth. rewrite nth_error_map, H. reflexivity.
Qed.
Lemma permuted_dot : forall (l1 l2 : list nat) w1 w2 c1 c2 t, NoDup l1 -> Permutation l1 l2 ->
  length w1 = length l1 -> length c1 = length l1 -> length w2 = length l2 -> length c2 = length l2 ->
  (forall k1 k2 id, nth_error l1 k1 = Some id -> nth_error l2 k2 = Some id ->
     nth k2 w2 0 = nth k1 w1 0 /\ nth k2 c2 0 = nth k1 c1 0 + t) ->
  dot w2 c2 = dot w1 c1 + t * sum w1.
Proof.
  intros l1 l2 w1 w2 c1 c2 t N P L1 L2 L3 L4 H.
  set (W := fun id => nth (position id l1) w1 0). set (C := fun id => nth (position id l1) c1 0).
  assert (A : forall k id, nth_error l1 k = Some id -> nth k w1 0 = W id /\ nth k c1 0 = C id).
  { intros k id Hk. unfold W, C. rewrite (position_ok l1 k id N Hk). auto. }
  rewrite (dot_as_sum l1 w1 c1 W C L1 L2 A).
  rewrite (dot_as_sum l2 w2 c2 W (fun id => C id + t) L3 L4).
  - rewrite (sum_permutation _ _ (Permutation_map _ (Permutation_sym P))).
    replace (sum w1) with (dot w1 (map (fun _ => 1) w1)).
    + rewrite (dot_as_sum l1 w1 (map (fun _ => 1) w1) W (fun _ => 1) L1); [|rewrite map_length; exact L1|].
      * clearbody W C. clear. unfold sum. induction l1 as [|x l IH]; cbn; [ring|]. rewrite IH. ring.
      * intros k id Hk. split; [apply A; exact Hk|].
        destruct (nth_error_combined _ w1 k) as (x & Hx); [rewrite L1; apply nth_error_Some; congruence|].
        apply (nth_mapped _ (fun _ => 1) _ _ _ Hx).
    + clear. unfold sum. induction w1 as [|x l IH]; cbn; [reflexivity|]. rewrite IH. ring.
  - intros k2 id Hk. assert (Hin : In id l1) by (apply (Permutation_in _ (Permutation_sym P)), nth_error_In with k2; exact Hk).
    apply In_nth_error in Hin. destruct Hin as (k1 & Hk1).
    destruct (A k1 id Hk1) as [<- <-]. apply (H k1 k2 id Hk1 Hk).
Qed.

(** the mapping that is selected *)
Lemma square_symmetry_affine : forall i m l1 l2, getCodim0MappingPtr Square i = Some m ->
  carries_nodes Square m l1 l2 -> affinely_related Square l1 l2.
Proof.
  intros i m l1 l2 Hm C.
  assert (A : exists a b c d e f, forall x y, transform m [x; y] = Some [a*x + b*y + e; c*x + d*y + f]).
  { enum 9%nat i; cbn in Hm; try discriminate Hm; injs.
    all: first [exists 1, 0, 0, 1, 0, 0; intros; cbn; point_eq lra; fail|exists (-1), 0, 0, 1, 0, 0; intros; cbn; point_eq lra; fail
      |exists 1, 0, 0, (-1), 0, 0; intros; cbn; point_eq lra; fail|exists (-1), 0, 0, (-1), 0, 0; intros; cbn; point_eq lra; fail
      |exists 0, 1, 1, 0, 0, 0; intros; cbn; point_eq lra; fail|exists 0, (-1), 1, 0, 0, 0; intros; cbn; point_eq lra; fail
      |exists 0, 1, (-1), 0, 0, 0; intros; cbn; point_eq lra; fail|exists 0, (-1), (-1), 0, 0, 0; intros; cbn; point_eq lra; fail]. }
  destruct A as (a & b & c & d & e & f & A). exists a, b, c, d, e, f.
  intros k1 k2 id p1 p2 E1 E2 F1 F2. assert (T := C k1 k2 id p1 p2 E1 E2 F1 F2).
  assert (L : length p1 = 2%nat) by (apply (points_length Square), nth_error_In with k1; exact F1). points_of_dim.
  rewrite A in T. exact T.
Qed.
Lemma lists_of_length : forall (l : list nat) n, length l = n -> match n with
  | 1%nat => exists a, l = [a] | 2%nat => exists a b, l = [a; b] | 3%nat => exists a b c, l = [a; b; c]
  | 4%nat => exists a b c d, l = [a; b; c; d] | _ => True end.
Proof.
  intros l n <-. destruct l as [|a [|b [|c [|d [|e l]]]]]; cbn; repeat eexists; exact I.
Qed.
Lemma index_ok : forall fg l1 l2, face_geometry fg -> NoDup l1 -> Permutation l1 l2 -> conforming fg l1 l2 ->
  length l1 = length (geometry_points fg) ->
  exists i m, codim0_mapping_index fg l1 l2 = Some i /\ getCodim0MappingPtr (base fg) i = Some m /\
    ((fg = Base Square -> i <> 1 /\ i <> 3)%nat -> carries_all_nodes fg m l1 l2).
Proof.
  intros fg l1 l2 F N P C L. destruct fg as [s|s o].
  - destruct s; try contradiction F; cbn in L; apply lists_of_length in L.
    + destruct L as (a & ->). apply Permutation_length_1_inv in P. subst l2. do 2 eexists. split; [reflexivity|split; [reflexivity|]]. intros _. carry.
    + destruct L as (a & b & ->). destruct (line_index a b l2 N P) as (i & m & H1 & H2 & H3).
      exists i, m. split; [exact H1|split; [exact H2|intros _; exact H3]].
    + destruct L as (a & b & c & ->). destruct (triangle_index a b c l2 N P) as (i & m & H1 & H2 & H3).
      exists i, m. split; [exact H1|split; [exact H2|intros _; exact H3]].
    + destruct L as (a & b & c & d & ->). destruct C as (i0 & m0 & Hm0 & C).
      destruct (square_index a b c d l2 N P (square_symmetry_affine _ _ _ _ Hm0 C)) as (i & m & H1 & H2 & H3 & _).
      exists i, m. split; [exact H1|split; [exact H2|intros Hi; apply H3, Hi; reflexivity]].
  - destruct C as (i0 & m0 & Hm0 & C). exists i0, m0.
    destruct s; try contradiction F; enum 3%nat o; try contradiction F.
    + split; [|split; [exact Hm0|intros _; exact C]]. apply (line_mapping_index 2 l1 l2 i0 m0 ltac:(lia) two_small N P L Hm0 C).
    + split; [|split; [exact Hm0|intros _; exact C]]. apply (triangle_mapping_index 2 l1 l2 i0 m0 ltac:(lia) two_small N P L Hm0 C).
Qed.

Lemma node_ids_ok : forall local ids l, map (fun i => nth_error ids i) local = map Some l ->
  node_ids (length local) local ids = Some l.
Proof.
  induction local as [|k local IH]; intros ids [|x l] H; try discriminate H; [reflexivity|].
  cbn in H. injection H as Hx H. cbn [length node_ids]. rewrite Hx. cbn [bind]. rewrite (IH ids l H). reflexivity.
Qed.
Lemma looked_up : forall (local ids l : list nat) k id, map (fun i => nth_error ids i) local = map Some l ->
  nth_error l k = Some id -> exists a, nth_error local k = Some a /\ nth_error ids a = Some id.
Proof.
  induction local as [|x local IH]; intros ids [|y l] k id H Hk; try discriminate H; [destruct k; discriminate Hk|].
  cbn in H. injection H as Hx H. destruct k as [|k]; cbn in Hk.
  - injection Hk as <-. exists x. split; [reflexivity|exact Hx].
  - apply (IH ids l k id H Hk).
Qed.

Lemma two_sides : forall L fL R fR fg t lL lR, same_face L fL R fR fg t lL lR -> conforming fg lL lR ->
  has_mapping (geom L) -> geom L <> Base Hypercube -> has_mapping (geom R) -> geom R <> Base Hypercube ->
  exists F, make_face L fL R fR = Some F /\ elementL F = L /\ elementR F = R /\
  ((fg = Base Square -> faceToFaceMapIndex F <> 1 /\ faceToFaceMapIndex F <> 3)%nat ->
   forall p, internal (base fg) p -> sides_agree F p t).
Proof.
  intros L fL R fR fg t lL lR [gL gR [vL nL] [vR nR] [dLR dt] (kL & iL & EL) (kR & iR & ER) ND P XY] C mL hL mR hR.
  destruct (face_value_all _ _ _ mL hL gL) as (FG & m1 & ns1 & M1 & I1 & len1 & V1).
  destruct (face_value_all _ _ _ mR hR gR) as (_ & m2 & ns2 & M2 & I2 & len2 & V2).
  rewrite I1 in iL. injection iL as <-. rewrite I2 in iR. injection iR as <-.
  assert (lenL : length lL = length ns1) by (apply (f_equal (@length _)) in EL; rewrite !map_length in EL; congruence).
  assert (lenR : length lR = length ns2) by (apply (f_equal (@length _)) in ER; rewrite !map_length in ER; congruence).
  destruct (index_ok fg lL lR FG ND P C ltac:(congruence)) as (i & m0 & Hi & Hm0 & HC).
  exists (Face L fL R fR i). split.
  { unfold make_face, getReferenceGeometry. rewrite I1, I2, gL. cbn [bind]. rewrite <- len1 at 1.
    rewrite (node_ids_ok _ _ _ EL). cbn [bind]. rewrite <- len2, (node_ids_ok _ _ _ ER). cbn [bind]. rewrite Hi. reflexivity. }
  split; [reflexivity|]. split; [reflexivity|]. cbn [faceToFaceMapIndex]. intros Hsq p Ip. specialize (HC Hsq).
  assert (Lp := internal_length _ _ _ Ip).
  destruct (codim0_bijection _ _ _ Hm0) as (j & m' & _ & B). destruct (B p Lp) as (q & Tq & _ & Iq). apply proj1 in Iq. specialize (Iq Ip).
  assert (Lq := internal_length _ _ _ Iq).
  destruct (V1 _ vL p Ip) as (xL & a & TL & PL & LA & VA). destruct (V2 _ vR q Iq) as (xR & b & TR & PR & LB & VB).
  exists xL, xR, a, b.
  split; [unfold mapRefFaceToRefElemL, mapRefFaceToRefElem; cbn [elementL localFaceNumberL]; rewrite M1; exact TL|].
  split.
  { unfold mapRefFaceToRefElemR, mapRefFaceToRefFace, mapRefFaceToRefElem, getReferenceGeometry.
    cbn [elementL elementR localFaceNumberL localFaceNumberR faceToFaceMapIndex]. rewrite gL. cbn [bind].
    unfold codim0_mapping. rewrite Hm0. cbn [bind]. rewrite Tq. cbn [bind]. rewrite M2. exact TR. }
  split; [exact PL|]. split; [exact PR|].
  split; [congruence|]. split; [congruence|]. intros c Hc.
  rewrite VA, VB by lia.
  rewrite (permuted_dot lL lR (face_weights fg p) (face_weights fg q) (map (fun k => nth c (nth k (coordinates L) []) 0) ns1)
             (map (fun k => nth c (nth k (coordinates R) []) 0) ns2) (nth c t 0) ND P).
  - rewrite face_weights_sum by assumption. ring.
  - rewrite face_weights_length by assumption. congruence.
  - rewrite map_length. congruence.
  - rewrite face_weights_length by assumption. rewrite lenR, len2. reflexivity.
  - rewrite map_length. congruence.
  - intros k1 k2 id H1 H2.
    destruct (looked_up _ _ _ _ _ EL H1) as (a1 & A1 & A1'). destruct (looked_up _ _ _ _ _ ER H2) as (a2 & A2 & A2').
    destruct (nth_error_combined _ (geometry_points fg) k1) as (p1 & P1).
    { rewrite <- len1. apply nth_error_Some. congruence. }
    destruct (nth_error_combined _ (geometry_points fg) k2) as (p2 & P2).
    { rewrite <- len2. apply nth_error_Some. congruence. }
    split; [apply (weights_move fg i m0 p q k1 k2 p1 p2 FG Hm0 Lp Tq P1 P2), (HC k1 k2 id p1 p2 H1 H2 P1 P2)|].
    rewrite (nth_mapped _ _ _ _ _ A1), (nth_mapped _ _ _ _ _ A2).
    destruct (nth_error_combined _ (coordinates L) a1) as (u & U); [rewrite <- nL; apply nth_error_Some; congruence|].
    destruct (nth_error_combined _ (coordinates R) a2) as (v & V); [rewrite <- nR; apply nth_error_Some; congruence|].
    rewrite (nth_error_nth _ _ _ U), (nth_error_nth _ _ _ V).
    apply (XY a1 a2 id u v A1' A2' (nth_error_In _ _ H1) U V). exact Hc.
Qed.

(** a rotated square: the two sides of the face disagree *)
Definition left_cube : element := Element (Base Cube) (points Cube) [0;1;2;3;4;5;6;7]%nat.
Definition rotated_cube : element := Element (Base Cube)
  [[1;-1;-3]; [1;1;-3]; [-1;-1;-3]; [-1;1;-3]; [1;-1;-1]; [1;1;-1]; [-1;-1;-1]; [-1;1;-1]]
  [8;9;10;11;1;3;0;2]%nat.
Lemma rotated_same_face : same_face left_cube 0 rotated_cube 5 (Base Square) [0;0;0] [0;1;2;3]%nat [1;3;0;2]%nat.
Proof.
  constructor; try reflexivity.
  - split; [split; [reflexivity|repeat constructor]|reflexivity].
  - split; [split; [reflexivity|repeat constructor]|reflexivity].
  - split; reflexivity.
  - eexists; split; reflexivity.
  - eexists; split; reflexivity.
  - repeat constructor; cbn; lia.
  - apply NoDup_Permutation_bis; [repeat constructor; cbn; lia|cbn; lia|]. intros x H. cbn in H |- *. intuition.
  - intros a b id p q Ha Hb Hin Hp Hq. cbn in Hin.
    enum 9%nat a; cbn in Ha, Hp; try discriminate Ha; injs; try (exfalso; lia);
    enum 9%nat b; cbn in Hb, Hq; try discriminate Hb; injs;
    (split; [reflexivity|split; [reflexivity|]]); intros i Hi; cbn in Hi; enum 3%nat i; try lia; cbn; lra.
Qed.
Lemma rotated_conforming : conforming (Base Square) [0;1;2;3]%nat [1;3;0;2]%nat.
Proof.
  exists 3%nat. eexists. split; [reflexivity|]. carry.
Qed.
Lemma rotated_disagree : exists F, make_face left_cube 0 rotated_cube 5 = Some F /\
  internal Square [1/2; 0] /\ ~ sides_agree F [1/2; 0] [0;0;0].
Proof.
  eexists. split; [reflexivity|]. split.
  - unfold internal. cbn. apply f_equal. repeat (apply andb_true_iff; split); apply leb_true; lra.
  - intros (xL & xR & a & b & H1 & H2 & H3 & H4 & La & Lb & S). cbn in H1, H2. injs.
    cbn in H3, H4. injs. specialize (S 0%nat ltac:(cbn; lia)). cbn in S. lra.
Qed.

(** the mapping to the right element *)
Lemma right_map : forall F m fs s fR, codim1_geometry (geom (elementL F)) (localFaceNumberL F) = Some fs ->
  geom (elementR F) = s -> localFaceNumberR F = fR ->
  (exists fs', codim1_geometry s fR = Some fs' /\ base fs' = base fs) ->
  refFaceToRefElemMapR F = Some m -> forall p, length p = dimension (base fs) ->
  transform m p = mapRefFaceToRefElemR F p /\
  exists J, calcJacobian m p = Some J /\ is_jacobian (transform m) (dimension (base fs)) (dimension (base s)) p J.
Proof.
  intros F m fs s fR HL <- <- (fs' & HR & Hb) HM p Lp.
  unfold refFaceToRefElemMapR, mapRefFaceToRefElemR, mapRefFaceToRefFace, mapRefFaceToRefElem, getReferenceGeometry in *.
  rewrite HL in *. cbn [bind] in *.
  destruct (codim0_mapping fs (faceToFaceMapIndex F)) as [m1|] eqn:H1; [|discriminate HM]. cbn [bind] in *.
  destruct (codim1_mapping (geom (elementR F)) (localFaceNumberR F)) as [m2|] eqn:H2; [|discriminate HM]. cbn [bind] in *.
  injection HM as <-. split; [reflexivity|].
  assert (H : exists s f, base (geom (elementR F)) = s /\ localFaceNumberR F = f /\ getCodim1MappingPtr s f = Some m2 /\
    getCodim1ReferenceGeometry s f = Some (base fs)).
  { do 2 eexists. split; [reflexivity|]. split; [reflexivity|]. split; [exact H2|]. rewrite <- Hb. clear - HR.
    destruct (geom (elementR F)) as [s|s o]; cbn in HR |- *; destruct (getCodim1ReferenceGeometry s (localFaceNumberR F)) as [u|];
      try discriminate HR; [injection HR as <-; reflexivity|].
    destruct u; injection HR as <-; reflexivity. }
  unfold codim0_mapping in H1. destruct H as (s & f & -> & _ & H2' & Hf). clear H2.
  clear - H2' Hf H1 Lp. generalize dependent (faceToFaceMapIndex F). generalize dependent (base fs).
  intros u Lp Hf i H1. each_face s f H2'; cbn in Hf; injs; cbn [dimension] in Lp; points_of_dim;
    enum 9%nat i; cbn in H1; try discriminate H1; injs; (eexists; split; [reflexivity|]); cbn [dimension]; jacobian.
Qed.

(** a cube glued to the left cube, bottom to bottom *)
Definition turned_cube : element := Element (Base Cube)
  [[1;-1;-1]; [-1;-1;-1]; [1;1;-1]; [-1;1;-1]; [1;-1;-3]; [-1;-1;-3]; [1;1;-3]; [-1;1;-3]]
  [1;0;3;2;8;9;10;11]%nat.
Lemma turned_same_face : same_face left_cube 0 turned_cube 0 (Base Square) [0;0;0] [0;1;2;3]%nat [1;0;3;2]%nat.
Proof.
  constructor; try reflexivity.
  - split; [split; [reflexivity|repeat constructor]|reflexivity].
  - split; [split; [reflexivity|repeat constructor]|reflexivity].
  - split; reflexivity.
  - eexists; split; reflexivity.
  - eexists; split; reflexivity.
  - repeat constructor; cbn; lia.
  - apply NoDup_Permutation_bis; [repeat constructor; cbn; lia|cbn; lia|]. intros x H. cbn in H |- *. intuition.
  - intros a b id p q Ha Hb Hin Hp Hq. cbn in Hin.
    enum 9%nat a; cbn in Ha, Hp; try discriminate Ha; injs; try (exfalso; lia);
    enum 9%nat b; cbn in Hb, Hq; try discriminate Hb; injs;
    (split; [reflexivity|split; [reflexivity|]]); intros i Hi; cbn in Hi; enum 3%nat i; try lia; cbn; lra.
Qed.
Lemma turned_conforming : conforming (Base Square) [0;1;2;3]%nat [1;0;3;2]%nat.
Proof. exists 5%nat. eexists. split; [reflexivity|]. carry. Qed.
(** two triangles on a periodic boundary, shifted by (3, 0) *)
Definition left_triangle : element := Element (Base Triangle) (points Triangle) [4;5;6]%nat.
Definition right_triangle : element := Element (Base Triangle) [[3;1]; [2;0]; [3;0]] [6;9;4]%nat.
Lemma periodic_same_face : same_face left_triangle 1 right_triangle 1 (Base Line) [3;0] [4;6]%nat [6;4]%nat.
Proof.
  constructor; try reflexivity.
  - split; [split; [reflexivity|repeat constructor]|reflexivity].
  - split; [split; [reflexivity|repeat constructor]|reflexivity].
  - split; reflexivity.
  - eexists; split; reflexivity.
  - eexists; split; reflexivity.
  - repeat constructor; cbn; lia.
  - apply NoDup_Permutation_bis; [repeat constructor; cbn; lia|cbn; lia|]. intros x H. cbn in H |- *. intuition.
  - intros a b id p q Ha Hb Hin Hp Hq. cbn in Hin.
    enum 4%nat a; cbn in Ha, Hp; try discriminate Ha; injs; try (exfalso; lia);
    enum 4%nat b; cbn in Hb, Hq; try discriminate Hb; injs;
    (split; [reflexivity|split; [reflexivity|]]); intros i Hi; cbn in Hi; enum 2%nat i; try lia; cbn; lra.
Qed.

Lemma two_sides_not_square : forall L fL R fR fg t lL lR, same_face L fL R fR fg t lL lR -> conforming fg lL lR ->
  has_mapping (geom L) -> geom L <> Base Hypercube -> has_mapping (geom R) -> geom R <> Base Hypercube -> fg <> Base Square ->
  exists F, make_face L fL R fR = Some F /\ elementL F = L /\ elementR F = R /\
   forall p, internal (base fg) p -> sides_agree F p t.
Proof.
  intros L fL R fR fg t lL lR S C h1 h2 h3 h4 N. destruct (two_sides _ _ _ _ _ _ _ _ S C h1 h2 h3 h4) as (F & E & EL & ER & H).
  exists F. split; [exact E|]. split; [exact EL|]. split; [exact ER|]. apply H. intros Q. contradiction.
Qed.
Lemma rotated_refutes : exists L fL R fR t lL lR F p, same_face L fL R fR (Base Square) t lL lR /\ conforming (Base Square) lL lR /\
  geom L = Base Cube /\ geom R = Base Cube /\ make_face L fL R fR = Some F /\ internal Square p /\ ~ sides_agree F p t.
Proof.
  destruct rotated_disagree as (F & HF & I & N). exists left_cube, 0%nat, rotated_cube, 5%nat, [0;0;0], [0;1;2;3]%nat, [1;3;0;2]%nat, F, [1/2; 0].
  split; [exact rotated_same_face|]. split; [exact rotated_conforming|]. split; [reflexivity|]. split; [reflexivity|].
  split; [exact HF|]. split; [exact I|exact N].
Qed.
