(** Tangential traces, definedness and number of the curl conforming functions. *)
From Coq Require Import List Arith Bool ZArith Reals Lra Lia.
From Verif Require Import Legendre_model Legendre_proofs RefGeometry_model RefGeometry_spec BasisFunctions_model BasisFunctions_spec
  BasisFunctions_proofs BasisSets_model CurlBasis_model CurlBasis_spec CurlBasis_proofs.
Import ListNotations.
Local Open Scope R_scope.

Definition list_of (v : vec) : list R := let '(a, b, c) := v in [a; b; c].
(** v is a multiple of the gradient of barycentric coordinate n *)
Definition along (n : nat) (v : vec) : Prop := exists c, v = vmul (dlam n) c.
Lemma along_vmul : forall n v s, along n v -> along n (vmul v s).
Proof. intros n v s (c & ->). exists (c * s). destruct (dlam n) as [[? ?] ?]. cbn. apply triple_eq; ring. Qed.
Lemma along_zero : forall n v, along n (vmul v 0).
Proof. intros n v. exists 0. destruct (dlam n) as [[? ?] ?], v as [[? ?] ?]. cbn. apply triple_eq; ring. Qed.
Lemma along_vadd : forall n v w, along n v -> along n w -> along n (vadd v w).
Proof. intros n v w (c & ->) (d & ->). exists (c + d). destruct (dlam n) as [[? ?] ?]. cbn. apply triple_eq; ring. Qed.
Lemma along_whitney : forall i j n x y z, n = i \/ n = j -> lam n x y z = 0 -> along n (w_field i j x y z).
Proof.
  intros i j n x y z [->| ->] H; unfold w_field; rewrite H.
  - exists (lam j x y z). destruct (dlam i) as [[? ?] ?], (dlam j) as [[? ?] ?]. cbn. apply triple_eq; ring.
  - exists (- lam i x y z). destruct (dlam i) as [[? ?] ?], (dlam j) as [[? ?] ?]. cbn. apply triple_eq; ring.
Qed.
Lemma along_phi1 : forall i j n x y z, n = i \/ n = j -> lam n x y z = 0 -> along n (phi1 i j x y z).
Proof.
  intros i j n x y z [->| ->] H; unfold phi1; rewrite H.
  - exists (lam j x y z). destruct (dlam i) as [[? ?] ?], (dlam j) as [[? ?] ?]. cbn. apply triple_eq; ring.
  - exists (lam i x y z). destruct (dlam i) as [[? ?] ?], (dlam j) as [[? ?] ?]. cbn. apply triple_eq; ring.
Qed.
Lemma along_scaled_zero : forall n v s, s = 0 -> along n (vmul v s).
Proof. intros n v s ->. apply along_zero. Qed.

(** the corners of a function are those the code works with *)
Definition proper_function (f : curl_function) : Prop :=
  match f with
  | EdgeNedelec _ _ i j | EdgeAinsworthCoyle _ i j => (i < 4)%nat /\ (j < 4)%nat /\ i <> j
  | Face1Nedelec _ _ _ d | Face2Nedelec _ _ _ d | FaceInteriorAinsworthCoyle _ _ d => (d < 4)%nat
  | EdgeFaceAinsworthCoyle deg d c => (2 <= deg)%nat /\ (d < 4)%nat /\ (c < 4)%nat /\ c <> d
  | FaceAinsworthCoyle _ _ d k => (d < 4)%nat /\ (k = 1 \/ k = 2)%nat
  | InteriorAinsworthCoyle _ _ _ k => (k = 1 \/ k = 2 \/ k = 3)%nat
  | _ => False
  end.
(** the fields of all functions on the tetrahedron *)
Definition field (f : curl_function) : R -> R -> R -> vec :=
  match f with
  | EdgeNedelec d1 d2 i j => fun s t u => vmul (w_field i j s t u) (lam i s t u ^ d1 * lam j s t u ^ d2)
  | Face1Nedelec d1 d2 d3 d => let '(a, b, c) := face_vertices d in
      fun s t u => vmul (w_field a b s t u) (lam a s t u ^ d1 * lam b s t u ^ d2 * lam c s t u ^ (d3 + 1))
  | Face2Nedelec d1 d2 d3 d => let '(a, b, c) := face_vertices d in
      fun s t u => vmul (w_field b c s t u) (lam a s t u ^ (d1 + 1) * lam b s t u ^ d2 * lam c s t u ^ d3)
  | Interior1Nedelec d1 d2 d3 d4 => fun s t u => vmul (w_field 0 1 s t u) (lam 0 s t u ^ d1 * lam 1 s t u ^ d2 * lam 2 s t u ^ (d3 + 1) * lam 3 s t u ^ (d4 + 1))
  | Interior2Nedelec d1 d2 d3 d4 => fun s t u => vmul (w_field 1 2 s t u) (lam 0 s t u ^ (d1 + 1) * lam 1 s t u ^ d2 * lam 2 s t u ^ d3 * lam 3 s t u ^ (d4 + 1))
  | Interior3Nedelec d1 d2 d3 d4 => fun s t u => vmul (w_field 2 3 s t u) (lam 0 s t u ^ (d1 + 1) * lam 1 s t u ^ (d2 + 1) * lam 2 s t u ^ d3 * lam 3 s t u ^ d4)
  | EdgeAinsworthCoyle deg o i => match deg with O => phi0 o i | S O => phi1 o i | S (S n) => edge_high n o i end
  | EdgeFaceAinsworthCoyle deg d c => let '(a, b) := edge_vertices d c in
      fun s t u => vmul (dlam c) (lam a s t u * lam b s t u * LegendrePolynomial (deg - 2) (lam b s t u - lam a s t u))
  | FaceAinsworthCoyle d1 d2 d k => let '(a, b, c) := directed_vertices d k in bubble_field (face_direction a b) d1 d2 a b c
  | FaceInteriorAinsworthCoyle d1 d2 d => let '(a, b, c) := face_vertices d in bubble_field (dlam d) d1 d2 a b c
  | InteriorAinsworthCoyle d1 d2 d3 k => interior_field (dlam k) d1 d2 d3
  | _ => fun _ _ _ => (0, 0, 0)
  end.
Definition proper3 (f : curl_function) : Prop :=
  match f with Interior1Nedelec _ _ _ _ | Interior2Nedelec _ _ _ _ | Interior3Nedelec _ _ _ _ => True | _ => proper_function f end.

Lemma edge_vertices_ok : forall d c, (d < 4)%nat -> (c < 4)%nat -> c <> d -> let '(a, b) := edge_vertices d c in
  (a < 4 /\ b < 4 /\ a <> b /\ a <> c /\ a <> d /\ b <> c /\ b <> d)%nat.
Proof. intros d c Hd Hc N. destruct d as [|[|[|[|d]]]]; try lia; (destruct c as [|[|[|[|c]]]]; try lia); cbn; lia. Qed.
Lemma directed_vertices_lt : forall d k, let '(a, b, c) := directed_vertices d k in
  (a < 4 /\ b < 4 /\ c < 4 /\ a <> b /\ a <> c /\ b <> c /\ a <> d /\ b <> d /\ c <> d)%nat.
Proof.
  intros d k. unfold directed_vertices. pose proof (face_vertices_lt d) as L. destruct (face_vertices d) as [[a b] c].
  destruct (Nat.eqb k 2); lia.
Qed.

Lemma eval_field : forall f x y z, proper3 f -> curl_eval f [x; y; z] = Some (list_of (field f x y z)).
Proof.
  intros f x y z H. destruct f; cbn [proper3 proper_function] in H; try contradiction; cbn [curl_eval field].
  - destruct H as (Hi & Hj & _). unfold EdgeNedelec_eval. rewrite whitney_field, !bary_lam by assumption. reflexivity.
  - unfold Face1Nedelec_eval. pose proof (face_vertices_lt d) as L. destruct (face_vertices d) as [[a b] e]. destruct L as (La & Lb & Le & _).
    rewrite whitney_field, !bary_lam by assumption. reflexivity.
  - unfold Face2Nedelec_eval. pose proof (face_vertices_lt d) as L. destruct (face_vertices d) as [[a b] e]. destruct L as (La & Lb & Le & _).
    rewrite whitney_field, !bary_lam by assumption. reflexivity.
  - unfold Interior1Nedelec_eval. rewrite whitney_field, !bary_lam by lia. reflexivity.
  - unfold Interior2Nedelec_eval. rewrite whitney_field, !bary_lam by lia. reflexivity.
  - unfold Interior3Nedelec_eval. rewrite whitney_field, !bary_lam by lia. reflexivity.
  - destruct H as (Ho & Hi & _). unfold EdgeAinsworthCoyle_eval. rewrite !bary_lam, !gradient_dlam by assumption. cbn [bind].
    destruct deg as [|[|n]]; [reflexivity|reflexivity|].
    replace (S (S n) - 1)%nat with (S n) by lia. replace (S (S n) - 2)%nat with n by lia.
    unfold entries, option_map. f_equal. unfold list_of, edge_high, phi0, phi1.
    generalize (LegendrePolynomial n (lam i x y z - lam o x y z)) (LegendrePolynomial (S n) (lam i x y z - lam o x y z)).
    intros. abstract_grads. cbn [vadd vmul vsub]. repeat (apply f_equal2; [ring|]). reflexivity.
  - destruct H as (Hd & Ho & Hc & N). unfold EdgeFaceAinsworthCoyle_eval. pose proof (edge_vertices_ok _ _ Ho Hc N) as L.
    destruct (edge_vertices opposing c) as [a b]. destruct L as (La & Lb & _).
    destruct (Nat.ltb_spec deg 2); [lia|]. rewrite !bary_lam, !gradient_dlam by assumption. reflexivity.
  - unfold FaceAinsworthCoyle_eval. pose proof (directed_vertices_lt opposing direction) as L.
    destruct (directed_vertices opposing direction) as [[a b] e]. destruct L as (La & Lb & Le & _). rewrite bubble_field_ok by assumption. reflexivity.
  - unfold FaceInteriorAinsworthCoyle_eval. pose proof (face_vertices_lt d) as L. destruct (face_vertices d) as [[a b] e].
    destruct L as (La & Lb & Le & _). rewrite gradient_dlam by assumption. cbn [bind]. rewrite bubble_field_ok by assumption. reflexivity.
  - unfold InteriorAinsworthCoyle_eval. destruct H as [->|[->| ->]]; reflexivity.
Qed.

Lemma face_corners : forall d n, (d < 4)%nat -> In n (filter (fun n => negb (Nat.eqb n d)) [0; 1; 2; 3]%nat) ->
  let '(a, b, c) := face_vertices d in n = a \/ n = b \/ n = c.
Proof.
  intros d n Hd H. apply filter_In in H. destruct H as [H N]. apply negb_true_iff, Nat.eqb_neq in N.
  destruct d as [|[|[|[|d]]]]; try lia; cbn in *; lia.
Qed.
Lemma directed_corners : forall d k n, (d < 4)%nat -> In n (filter (fun n => negb (Nat.eqb n d)) [0; 1; 2; 3]%nat) ->
  let '(a, b, c) := directed_vertices d k in n = a \/ n = b \/ n = c.
Proof.
  intros d k n Hd H. pose proof (face_corners d n Hd H) as L. unfold directed_vertices. destruct (face_vertices d) as [[a b] c].
  destruct (Nat.eqb k 2); tauto.
Qed.
Lemma edge_corners : forall d c n, (d < 4)%nat -> (c < 4)%nat -> c <> d -> In n (filter (fun n => negb (Nat.eqb n d)) [0; 1; 2; 3]%nat) ->
  let '(a, b) := edge_vertices d c in n = a \/ n = b \/ n = c.
Proof.
  intros d c n Hd Hc N H. apply filter_In in H. destruct H as [H M]. apply negb_true_iff, Nat.eqb_neq in M.
  destruct d as [|[|[|[|d]]]]; try lia; (destruct c as [|[|[|[|c]]]]; try lia); cbn in *; lia.
Qed.
Lemma all_corners : forall d n, (d < 4)%nat -> In n [0; 1; 2; 3]%nat -> let '(a, b, c) := face_vertices d in n = a \/ n = b \/ n = c \/ n = d.
Proof. intros d n Hd H. destruct d as [|[|[|[|d]]]]; try lia; cbn in *; lia. Qed.

Lemma field_along : forall f n x y z, proper3 f -> In n (corners_of f) -> lam n x y z = 0 -> along n (field f x y z).
Proof.
  intros f n x y z H Hn Z. destruct f; cbn [proper3 proper_function] in H; try contradiction; cbn [corners_of] in Hn; cbn [field].
  - apply along_vmul, along_whitney; [|exact Z]. destruct Hn as [Hn|[Hn|[]]]; auto.
  - pose proof (face_corners d n H Hn) as L. destruct (face_vertices d) as [[a b] e]. destruct L as [->|[->| ->]].
    + apply along_vmul, along_whitney; auto.
    + apply along_vmul, along_whitney; auto.
    + apply along_scaled_zero. rewrite Z, Nat.add_1_r. cbn. ring.
  - pose proof (face_corners d n H Hn) as L. destruct (face_vertices d) as [[a b] e]. destruct L as [->|[->| ->]].
    + apply along_scaled_zero. rewrite Z, Nat.add_1_r. cbn. ring.
    + apply along_vmul, along_whitney; auto.
    + apply along_vmul, along_whitney; auto.
  - destruct Hn as [<-|[<-|[<-|[<-|[]]]]]; try (apply along_vmul, along_whitney; auto; fail);
      apply along_scaled_zero; rewrite Z, !Nat.add_1_r; cbn; ring.
  - destruct Hn as [<-|[<-|[<-|[<-|[]]]]]; try (apply along_vmul, along_whitney; auto; fail);
      apply along_scaled_zero; rewrite Z, !Nat.add_1_r; cbn; ring.
  - destruct Hn as [<-|[<-|[<-|[<-|[]]]]]; try (apply along_vmul, along_whitney; auto; fail);
      apply along_scaled_zero; rewrite Z, !Nat.add_1_r; cbn; ring.
  - assert (n = o \/ n = i) as Hn' by (destruct Hn as [Hn|[Hn|[]]]; auto).
    destruct deg as [|[|deg]]; [exact (along_whitney o i n x y z Hn' Z)|exact (along_phi1 o i n x y z Hn' Z)|].
    apply along_vadd; apply along_vmul; [exact (along_whitney o i n x y z Hn' Z)|exact (along_phi1 o i n x y z Hn' Z)].
  - destruct H as (_ & Ho & Hc & N). pose proof (edge_corners _ _ n Ho Hc N Hn) as L. destruct (edge_vertices opposing c) as [a b].
    destruct L as [->|[->| ->]].
    + apply along_scaled_zero. rewrite Z. ring.
    + apply along_scaled_zero. rewrite Z. ring.
    + exists (lam a x y z * lam b x y z * LegendrePolynomial (deg - 2) (lam b x y z - lam a x y z)). reflexivity.
  - destruct H as (Ho & _). pose proof (directed_corners _ direction n Ho Hn) as L. destruct (directed_vertices opposing direction) as [[a b] e].
    unfold bubble_field. apply along_scaled_zero. destruct L as [->|[->| ->]]; rewrite Z; ring.
  - pose proof (all_corners d n H Hn) as L. destruct (face_vertices d) as [[a b] e]. unfold bubble_field.
    destruct L as [->|[->|[->| ->]]]; try (apply along_scaled_zero; rewrite Z; ring).
    eexists. reflexivity.
  - unfold interior_field. apply along_scaled_zero. destruct Hn as [<-|[<-|[<-|[<-|[]]]]]; rewrite Z; ring.
Qed.

(** barycentric coordinates of averages *)
Lemma sum_zero : forall l, (forall a, In a l -> a = 0) -> sum l = 0.
Proof.
  induction l as [|a l IH]; intros H; [reflexivity|]. unfold sum in *. cbn.
  rewrite (H a (or_introl eq_refl)), IH; [ring|intros; apply H; right; assumption].
Qed.
Definition lam_at (n : nat) (p : point) : R := lam n (nth 0 p 0) (nth 1 p 0) (nth 2 p 0).
Lemma lam_average : forall n p ps, (n < 4)%nat -> is_average p ps -> length p = 3%nat -> (forall q, In q ps -> lam_at n q = 0) -> lam_at n p = 0.
Proof.
  intros n p ps Hn (ws & Lw & _ & S1 & _ & Hc) Lp Z.
  assert (forall k, (1 <= k < 4)%nat -> nth (k - 1) p 0 = sum (map (fun wq => fst wq * lam_at k (snd wq)) (combine ws ps))) as Hk.
  { intros k Hk. rewrite Hc by lia. f_equal. apply map_ext. intros wq. destruct k as [|[|[|[|k]]]]; try lia; reflexivity. }
  destruct n as [|n].
  - unfold lam_at. cbn [lam]. rewrite (Hc 0%nat), (Hc 1%nat), (Hc 2%nat) by lia. rewrite <- S1.
    clear - Lw Z. revert ps Lw Z. induction ws as [|w ws IH]; intros [|q ps] Lw Z; try discriminate; [unfold sum; cbn; ring|].
    injection Lw as Lw. specialize (IH ps Lw (fun q' H => Z q' (or_intror H))).
    unfold sum in *. cbn [combine map fold_right fst snd]. pose proof (Z q (or_introl eq_refl)) as Zq. unfold lam_at in Zq. cbn [lam] in Zq.
    match goal with |- (?a + ?A) - (?b + ?B) - (?c + ?C) - (?d + ?E) = 0 =>
      replace ((a + A) - (b + B) - (c + C) - (d + E)) with ((A - B - C - E) + (a - b - c - d)) by ring end.
    rewrite IH. replace (nth 0 q 0) with (1 - nth 1 q 0 - nth 2 q 0) by lra. ring.
  - assert (lam_at (S n) p = nth n p 0) as -> by (destruct n as [|[|[|n]]]; try lia; reflexivity).
    specialize (Hk (S n) ltac:(lia)). replace (S n - 1)%nat with n in Hk by lia. rewrite Hk. apply sum_zero.
    intros a Ha. apply in_map_iff in Ha. destruct Ha as [[w q] [<- Hq]]. apply in_combine_r in Hq. cbn [fst snd]. rewrite Z by exact Hq. ring.
Qed.
Lemma length_average : forall p ps q, is_average p ps -> In q ps -> length q = length p.
Proof. intros p ps q (ws & _ & _ & _ & H & _) Hq. auto. Qed.

Lemma traces_3D : forall f ns ps, proper3 f -> map (nth_error (points Tetrahedron)) ns = map Some ps ->
  ~ incl (corners_of f) ns -> no_tangential (curl_eval f) ps.
Proof.
  intros f ns ps Hf Hps Hi p v a b Hp Ha Hb Hv.
  assert (exists n, In n (corners_of f) /\ ~ In n ns) as (n & Hn & Hn').
  { clear - Hi. assert (forall l, ~ incl l ns -> exists n, In n l /\ ~ In n ns) as G.
    { induction l as [|m l IH]; intros H; [exfalso; apply H; intros ? []|].
      destruct (in_dec Nat.eq_dec m ns) as [Hm|Hm]; [|exists m; split; [left; reflexivity|exact Hm]].
      destruct IH as (n & H1 & H2); [intros L; apply H; intros k [<-|Hk]; auto|]. exists n. split; [right; exact H1|exact H2]. }
    exact (G _ Hi). }
  assert (n < 4)%nat as Ln.
  { clear - Hf Hn. destruct f; cbn [proper3 proper_function corners_of] in *; try contradiction;
      try (apply filter_In in Hn; destruct Hn as [Hn _]); cbn in Hn; lia. }
  assert (forall q, In q ps -> exists m, In m ns /\ nth_error (points Tetrahedron) m = Some q) as HQ.
  { intros q Hq. assert (In (Some q) (map (nth_error (points Tetrahedron)) ns)) as Hq' by (rewrite Hps; apply in_map; exact Hq).
    apply in_map_iff in Hq'. destruct Hq' as (m & E & Hm). eauto. }
  assert (forall q, In q ps -> lam_at n q = 0 /\ length q = 3%nat) as HZ.
  { intros q Hq. destruct (HQ q Hq) as (m & Hm & E). assert (m <> n) as N by (intros ->; contradiction).
    clear - E N Ln. destruct m as [|[|[|[|m]]]]; cbn in E; [| | | |destruct m; discriminate]; injection E as <-;
      (split; [|reflexivity]); unfold lam_at; destruct n as [|[|[|[|n]]]]; try lia; cbn; try lra; contradiction. }
  assert (length p = 3%nat) as Lp by (rewrite <- (length_average p ps a Hp Ha); apply HZ; exact Ha).
  pose proof (lam_average n p ps Ln Hp Lp (fun q H => proj1 (HZ q H))) as Zp.
  destruct p as [|x [|y [|z [|? ?]]]]; try discriminate.
  rewrite eval_field in Hv by exact Hf. apply Some_inj in Hv. subst v.
  destruct (field_along f n x y z Hf Hn Zp) as (c & ->).
  destruct (HZ a Ha) as [Za La], (HZ b Hb) as [Zb Lb].
  destruct a as [|a0 [|a1 [|a2 [|? ?]]]]; try discriminate. destruct b as [|b0 [|b1 [|b2 [|? ?]]]]; try discriminate.
  unfold lam_at in Za, Zb. cbn [nth] in Za, Zb. unfold dot, from_to, sum.
  destruct n as [|[|[|[|n]]]]; try lia; cbn in Za, Zb |- *; try (rewrite Za, Zb; ring).
  replace a0 with (1 - a1 - a2) by lra. replace b0 with (1 - b1 - b2) by lra. ring.
Qed.

(** ** The triangle *)
Definition lam2 (n : nat) (x y : R) : R := match n with O => 1 - x - y | S O => x | _ => y end.
Definition dlam2 (n : nat) : R * R := match n with O => (-1, -1) | S O => (1, 0) | _ => (0, 1) end.
Definition plane_function (f : curl_function) : Prop :=
  match f with EdgeNedelec2D _ _ | InteriorNedelec2D _ _ => True | _ => False end.
Lemma along_2D : forall f n x y v, plane_function f -> In n (corners_of f) -> lam2 n x y = 0 -> curl_eval f [x; y] = Some v ->
  exists c, v = [fst (dlam2 n) * c; snd (dlam2 n) * c].
Proof.
  intros f n x y v Hf Hn Z Hv. destruct f; try contradiction; cbn [curl_eval] in Hv; apply entries2_inv in Hv; destruct Hv as (w & Hw & ->).
  - unfold EdgeNedelec2D_eval in Hw. unbind Hw. apply Some_inj in Hw. subst w. cbn [fst snd].
    destruct side as [|[|side]]; cbn [corners_of] in Hn; destruct Hn as [<-|[<-|[]]]; cbn [lam2 sideFunction dlam2 fst snd] in *.
    + exists (x * l). replace (y - 1) with (- x) by lra. f_equal; [ring|]. f_equal. ring.
    + exists ((y - 1) * l). subst x. f_equal; [ring|]. f_equal. ring.
    + exists (y * l). subst x. f_equal; [ring|]. f_equal. ring.
    + exists (- x * l). subst y. f_equal; [ring|]. f_equal. ring.
    + exists (- y * l). replace (1 - x) with y by lra. f_equal; [ring|]. f_equal. ring.
    + exists ((1 - x) * l). subst y. f_equal; [ring|]. f_equal. ring.
  - unfold InteriorNedelec2D_eval in Hw. unbind Hw. apply Some_inj in Hw. subst w. cbn [fst snd].
    destruct type as [|type]; cbn [corners_of] in Hn; destruct Hn as [<-|[<-|[<-|[]]]]; cbn [lam2 typePart dlam2 fst snd] in *.
    + exists (- y * x * l). replace (1 - x) with y by lra. f_equal; [ring|]. f_equal. ring.
    + exists 0. subst x. f_equal; [ring|]. f_equal. ring.
    + exists ((1 - x) * x * l). subst y. f_equal; [ring|]. f_equal. ring.
    + exists (- x * y * l). replace (1 - y) with x by lra. f_equal; [ring|]. f_equal. ring.
    + exists ((1 - y) * y * l). subst x. f_equal; [ring|]. f_equal. ring.
    + exists 0. subst y. f_equal; [ring|]. f_equal. ring.
Qed.
Definition lam2_at (n : nat) (p : point) : R := lam2 n (nth 0 p 0) (nth 1 p 0).
Lemma lam2_average : forall n p ps, (n < 3)%nat -> is_average p ps -> length p = 2%nat -> (forall q, In q ps -> lam2_at n q = 0) -> lam2_at n p = 0.
Proof.
  intros n p ps Hn (ws & Lw & _ & S1 & _ & Hc) Lp Z.
  destruct n as [|n].
  - unfold lam2_at. cbn [lam2]. rewrite (Hc 0%nat), (Hc 1%nat) by lia. rewrite <- S1.
    clear - Lw Z. revert ps Lw Z. induction ws as [|w ws IH]; intros [|q ps] Lw Z; try discriminate; [unfold sum; cbn; ring|].
    injection Lw as Lw. specialize (IH ps Lw (fun q' H => Z q' (or_intror H))).
    unfold sum in *. cbn [combine map fold_right fst snd]. pose proof (Z q (or_introl eq_refl)) as Zq. unfold lam2_at in Zq. cbn [lam2] in Zq.
    match goal with |- (?a + ?A) - (?b + ?B) - (?c + ?C) = 0 =>
      replace ((a + A) - (b + B) - (c + C)) with ((A - B - C) + (a - b - c)) by ring end.
    rewrite IH. replace (nth 0 q 0) with (1 - nth 1 q 0) by lra. ring.
  - assert (lam2_at (S n) p = nth n p 0) as -> by (destruct n as [|[|n]]; try lia; reflexivity).
    rewrite Hc by lia. apply sum_zero.
    intros a Ha. apply in_map_iff in Ha. destruct Ha as [[w q] [<- Hq]]. apply in_combine_r in Hq. cbn [fst snd].
    replace (nth n q 0) with (lam2_at (S n) q) by (destruct n as [|[|n]]; try lia; reflexivity). rewrite Z by exact Hq. ring.
Qed.
Lemma traces_2D : forall f ns ps, plane_function f -> map (nth_error (points Triangle)) ns = map Some ps ->
  ~ incl (corners_of f) ns -> no_tangential (curl_eval f) ps.
Proof.
  intros f ns ps Hf Hps Hi p v a b Hp Ha Hb Hv.
  assert (exists n, In n (corners_of f) /\ ~ In n ns) as (n & Hn & Hn').
  { clear - Hi. assert (forall l, ~ incl l ns -> exists n, In n l /\ ~ In n ns) as G.
    { induction l as [|m l IH]; intros H; [exfalso; apply H; intros ? []|].
      destruct (in_dec Nat.eq_dec m ns) as [Hm|Hm]; [|exists m; split; [left; reflexivity|exact Hm]].
      destruct IH as (n & H1 & H2); [intros L; apply H; intros k [<-|Hk]; auto|]. exists n. split; [right; exact H1|exact H2]. }
    exact (G _ Hi). }
  assert (n < 3)%nat as Ln.
  { clear - Hf Hn. destruct f; try contradiction; cbn [corners_of] in Hn; [destruct side as [|[|side]]|]; cbn in Hn; lia. }
  assert (forall q, In q ps -> lam2_at n q = 0 /\ length q = 2%nat) as HZ.
  { intros q Hq. assert (exists m, In m ns /\ nth_error (points Triangle) m = Some q) as (m & Hm & E).
    { assert (In (Some q) (map (nth_error (points Triangle)) ns)) as Hq' by (rewrite Hps; apply in_map; exact Hq).
      apply in_map_iff in Hq'. destruct Hq' as (m & E & Hm). eauto. }
    assert (m <> n) as N by (intros ->; contradiction).
    clear - E N Ln. destruct m as [|[|[|m]]]; cbn in E; [| | |destruct m; discriminate]; injection E as <-;
      (split; [|reflexivity]); unfold lam2_at; destruct n as [|[|[|n]]]; try lia; cbn; try lra; contradiction. }
  assert (length p = 2%nat) as Lp by (rewrite <- (length_average p ps a Hp Ha); apply HZ; exact Ha).
  pose proof (lam2_average n p ps Ln Hp Lp (fun q H => proj1 (HZ q H))) as Zp.
  destruct p as [|x [|y [|? ?]]]; try discriminate.
  destruct (along_2D f n x y v Hf Hn Zp Hv) as (c & ->).
  destruct (HZ a Ha) as [Za La], (HZ b Hb) as [Zb Lb].
  destruct a as [|a0 [|a1 [|? ?]]]; try discriminate. destruct b as [|b0 [|b1 [|? ?]]]; try discriminate.
  unfold lam2_at in Za, Zb. cbn [nth] in Za, Zb. unfold dot, from_to, sum.
  destruct n as [|[|[|n]]]; try lia; cbn in Za, Zb |- *; try (rewrite Za, Zb; ring).
  replace a0 with (1 - a1) by lra. replace b0 with (1 - b1) by lra. ring.
Qed.

(** ** The functions of the sets *)
Lemma in_loop : forall k n i, In i (loop k n) <-> (i + k <= n)%nat.
Proof. intros. unfold loop. rewrite in_seq. lia. Qed.
Ltac in_set H :=
  repeat match type of H with
  | In _ (_ ++ _) => apply in_app_or in H; destruct H as [H|H]
  | In _ (if ?c then _ else _) => destruct c eqn:?; [|destruct H]
  | In _ (flat_map _ _) => apply in_flat_map in H; let a := fresh "k" in let B := fresh "B" in destruct H as (a & B & H)
  end.
Ltac in_list H := cbn [In] in H; repeat (destruct H as [H|H]; [subst|]); try contradiction H.
Lemma in_nedelec : forall order f, In f (createDGBasisFunctionSet3DNedelec order) ->
  proper3 f /\
  match f with
  | EdgeNedelec l m i j => (l + m + 1 = order /\ i < j)%nat
  | Face1Nedelec l m n _ | Face2Nedelec l m n _ => (l + m + n + 2 = order)%nat
  | Interior1Nedelec l m n o | Interior2Nedelec l m n o | Interior3Nedelec l m n o => (l + m + n + o + 3 = order)%nat
  | _ => False
  end.
Proof.
  intros order f H. unfold createDGBasisFunctionSet3DNedelec in H. in_set H;
    repeat match goal with B : In _ (loop _ _) |- _ => apply in_loop in B end;
    cbn zeta in H; in_list H; cbn; repeat split; try lia; try exact I.
Qed.
Lemma in_ainsworth : forall order f, In f (createDGBasisFunctionSet3DAinsworthCoyle order) ->
  proper3 f /\
  match f with
  | EdgeAinsworthCoyle deg i j => (deg <= order /\ i < j)%nat
  | EdgeFaceAinsworthCoyle deg _ _ => (deg <= order)%nat
  | FaceAinsworthCoyle l m _ _ | FaceInteriorAinsworthCoyle l m _ => (l + m + 3 <= order)%nat
  | InteriorAinsworthCoyle l m n _ => (l + m + n + 4 <= order)%nat
  | _ => False
  end.
Proof.
  intros order f H. unfold createDGBasisFunctionSet3DAinsworthCoyle in H. in_set H;
    repeat match goal with B : In _ (map _ _) |- _ => apply in_map_iff in B; let q := fresh "q" in destruct B as (q & <- & B) end;
    repeat match goal with B : In _ (loop _ _) |- _ => apply in_loop in B end;
    in_list H; cbn; repeat split; try lia; try exact I.
Qed.
