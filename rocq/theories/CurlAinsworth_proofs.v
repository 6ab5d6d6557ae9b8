(** Linear independence of the functions of Ainsworth and Coyle. *)
From Coq Require Import List Arith Bool ZArith Reals Lra Lia.
From Verif Require Import Legendre_model Legendre_spec Legendre_proofs RefGeometry_model RefGeometry_spec RefGeometry_proofs BasisFunctions_model BasisSets_model Independence_spec FreeFamilies_proofs
  CurlBasis_model CurlBasis_spec CurlBasis_proofs CurlTraces_proofs CurlIndependence_proofs.
Import ListNotations.
Local Open Scope R_scope.

Lemma legendre_poly : forall n, exists a, poly n (LegendrePolynomial n) a /\ a <> 0.
Proof.
  intros n. destruct (legendre_degree n) as (c & lead & L & N & E). exists lead. split; [|exact N].
  assert (forall c f, (forall x, f x = poly_value (c ++ [lead]) x) -> poly (length c) f lead) as G.
  { clear. induction c as [|b c IH]; intros f E.
    - cbn. intros x. rewrite E. cbn. ring.
    - cbn. exists (poly_value (c ++ [lead])), b. split; [apply IH; reflexivity|]. intros x. rewrite E. cbn. ring. }
  subst n. apply G. exact E.
Qed.
Definition legendres (e : nat * (nat * nat)) (p : R * (R * R)) : R := product LegendrePolynomial (product LegendrePolynomial LegendrePolynomial) e p.
Definition near (p : R * (R * R)) : Prop := 0 < fst p < 1/8 /\ 0 < fst (snd p) < 1/8 /\ 0 < snd (snd p) < 1/8.
Lemma legendres_free : free legendres near (fun _ => True).
Proof.
  assert (free LegendrePolynomial (fun x => 0 < x < 1/8) (fun _ => True)) as F1 by (apply free_graded; [lra|intros k _; apply legendre_poly]).
  assert (free (product LegendrePolynomial LegendrePolynomial) (fun p => 0 < fst p < 1/8 /\ 0 < snd p < 1/8) (fun _ => True)) as F2.
  { eapply free_less; [exact (free_product Nat.eq_dec _ _ _ _ _ _ F1 F1)| |]; cbn; auto. }
  eapply free_less; [exact (free_product Nat.eq_dec _ _ _ _ _ _ F1 F2)| |]; cbn; auto.
Qed.

(** the edge, face or direction a function belongs to, without its degrees *)
Definition part_of (f : curl_function) : nat * nat * nat :=
  match f with
  | EdgeAinsworthCoyle _ o i => (0, o, i)
  | EdgeFaceAinsworthCoyle _ d c => (1, d, c)
  | FaceAinsworthCoyle _ _ d k => (2, d, k)
  | FaceInteriorAinsworthCoyle _ _ d => (3, d, 0)
  | InteriorAinsworthCoyle _ _ _ k => (4, k, 0)
  | _ => (5, 0, 0)
  end%nat.
Definition degrees (f : curl_function) : nat * (nat * nat) :=
  match f with
  | EdgeAinsworthCoyle deg _ _ => (deg, (0, 0))
  | EdgeFaceAinsworthCoyle deg _ _ => (deg - 2, (0, 0))
  | FaceAinsworthCoyle l m _ _ | FaceInteriorAinsworthCoyle l m _ => (l, (m, 0))
  | InteriorAinsworthCoyle l m n _ => (l, (m, n))
  | _ => (0, (0, 0))
  end%nat.
(** the point with the given barycentric coordinates *)
Definition weigh (a : nat) (w : R) (n : nat) : R := if Nat.eqb n a then w else 0.
Definition point_of (w : nat -> R) : vec := (w 1%nat, w 2%nat, w 3%nat).
Definition edge_point (a b : nat) (u : R) : vec := point_of (fun n => weigh a ((1 - u) / 2) n + weigh b ((1 + u) / 2) n).
Definition face_point (a b c : nat) (u v : R) : vec :=
  point_of (fun n => weigh a ((1 - u - v) / 3) n + weigh b ((1 - u - v) / 3 + u) n + weigh c ((1 - u - v) / 3 + v) n).
(** where the functions of a part are looked at, and in which direction *)
Definition look (j : nat * nat * nat) (q : R * (R * R)) : vec * vec :=
  let '(u, (v, w)) := q in
  match j with
  | (O, o, i) => (edge_point o i u, vsub (corner i) (corner o))
  | (S O, d, c) => let '(a, b) := edge_vertices d c in (edge_point a b u, vsub (corner c) (corner a))
  | (S (S O), d, k) => let '(a, b, c) := directed_vertices d k in (face_point a b c u v, vsub (corner b) (corner a))
  | (S (S (S O)), d, _) => let '(a, b, c) := face_vertices d in (face_point a b c u v, vsub (corner d) (corner a))
  | (_, k, _) => let x := (1 - u - v - w) / 4 in ((x + u, x + v, x + w), dlam k)
  end.
Definition factor (j : nat * nat * nat) (q : R * (R * R)) : R :=
  let '(u, (v, w)) := q in
  match fst (fst j) with
  | O => -1
  | S O => (1 - u) / 2 * ((1 + u) / 2)
  | S (S O) | S (S (S O)) => (1 - u - v) / 3 * ((1 - u - v) / 3 + u) * ((1 - u - v) / 3 + v)
  | _ => let x := (1 - u - v - w) / 4 in x * (x + u) * (x + v) * (x + w)
  end.
Definition is_ainsworth (order : nat) (f : curl_function) : Prop := In f (createDGBasisFunctionSet3DAinsworthCoyle order).

Ltac shape := cbn [fst snd at_point part_of edge_vertices directed_vertices face_vertices skip skip2 Nat.eqb Nat.leb orb andb negb Nat.sub Nat.add field].
Ltac plain := unfold seen, look; shape;
  unfold edge_point, face_point, point_of, weigh, corner; shape;
  unfold bubble_field, interior_field, face_direction, truth, phi0, phi1;
  cbn [Nat.eqb Nat.leb Nat.sub andb at_point vdot vsub vadd vmul dlam lam].

Lemma edge_high_seen : forall n o i p s, vdot (phi0 o i (fst (fst p)) (snd (fst p)) (snd p)) s = -1 ->
  vdot (phi1 o i (fst (fst p)) (snd (fst p)) (snd p)) s = - (lam i (fst (fst p)) (snd (fst p)) (snd p) - lam o (fst (fst p)) (snd (fst p)) (snd p)) ->
  vdot (edge_high n o i (fst (fst p)) (snd (fst p)) (snd p)) s
  = - LegendrePolynomial (S (S n)) (lam i (fst (fst p)) (snd (fst p)) (snd p) - lam o (fst (fst p)) (snd (fst p)) (snd p)).
Proof.
  intros n o i p s H0 H1. unfold edge_high.
  set (P0 := phi0 _ _ _ _ _) in *. set (P1 := phi1 _ _ _ _ _) in *. set (X := lam i _ _ _ - lam o _ _ _) in *.
  assert (forall a b t, vdot (vadd a b) t = vdot a t + vdot b t) as A by (intros [[? ?] ?] [[? ?] ?] [[? ?] ?]; cbn; ring).
  rewrite A, !vdot_vmul, H0, H1, (P_SS n X). fold (LegendrePolynomial (S n) X).
  replace (INR (2 * S (S n) - 1)) with (2 * INR (S (S n)) - 1).
  2:{ rewrite minus_INR, mult_INR by lia. cbn [INR]. ring. }
  rewrite (S_INR (S n)). pose proof (pos_INR (S n)). field. lra.
Qed.
Lemma ainsworth_seen : forall order f q, is_ainsworth order f -> seen f (look (part_of f) q) = factor (part_of f) q * (1 * legendres (degrees f) q).
Proof.
  intros order f [u [v w]] H. destruct (in_ainsworth order f H) as [Hp Ho].
  destruct f; try contradiction; cbn [proper3 proper_function] in Hp; unfold legendres, product; cbn [part_of degrees factor fst snd LegendrePolynomial].
  - destruct Hp as (H1 & H2 & _), Ho as (_ & Hoi).
    assert (vdot (phi0 o i (fst (fst (edge_point o i u))) (snd (fst (edge_point o i u))) (snd (edge_point o i u))) (vsub (corner i) (corner o)) = -1) as E0
      by (small o; small i; plain; cbn [fst snd dlam lam vmul vsub vdot]; field).
    assert (vdot (phi1 o i (fst (fst (edge_point o i u))) (snd (fst (edge_point o i u))) (snd (edge_point o i u))) (vsub (corner i) (corner o)) = - u) as E1
      by (small o; small i; plain; cbn [fst snd dlam lam vmul vsub vadd vdot]; field).
    assert (lam i (fst (fst (edge_point o i u))) (snd (fst (edge_point o i u))) (snd (edge_point o i u)) -
      lam o (fst (fst (edge_point o i u))) (snd (fst (edge_point o i u))) (snd (edge_point o i u)) = u) as Eu
      by (small o; small i; plain; cbn [fst snd lam]; field).
    unfold seen, look. cbn [fst snd]. destruct (edge_point o i u) as [[x y] z] eqn:Ep. cbn [at_point field fst snd] in *.
    destruct deg as [|[|n]].
    + rewrite E0. cbn. ring.
    + rewrite E1. cbn. ring.
    + pose proof (edge_high_seen n o i (x, y, z) (vsub (corner i) (corner o))) as G. cbn [fst snd] in G. rewrite Eu in G. rewrite (G E0 E1). ring.
  - destruct Hp as (_ & H1 & H2 & H3). small opposing; small c; plain;
      match goal with |- context [LegendrePolynomial ?n ?e] => lazymatch e with u => fail | _ => replace e with u by field end end; field.
  - destruct Hp as (H1 & H2). destruct H2 as [-> | ->]; small opposing; plain;
      repeat match goal with |- context [LegendrePolynomial ?n ?e] => lazymatch e with u => fail | v => fail | _ => first [replace e with u by field|replace e with v by field] end end; field.
  - small d; plain;
      repeat match goal with |- context [LegendrePolynomial ?n ?e] => lazymatch e with u => fail | v => fail | _ => first [replace e with u by field|replace e with v by field] end end; field.
  - destruct Hp as [-> |[-> | ->]]; plain;
      repeat match goal with |- context [LegendrePolynomial ?n ?e] => lazymatch e with u => fail | v => fail | w => fail | _ => first [replace e with u by field|replace e with v by field|replace e with w by field] end end; field.
Qed.

Definition valid_part (j : nat * nat * nat) : Prop :=
  match j with
  | (O, o, i) => (o < i < 4)%nat
  | (S O, d, c) => (d < 4 /\ c < 4 /\ c <> d)%nat
  | (S (S O), d, k) => (d < 4 /\ (k = 1 \/ k = 2))%nat
  | (S (S (S O)), d, z) => (d < 4 /\ z = 0)%nat
  | (S (S (S (S O))), k, z) => ((k = 1 \/ k = 2 \/ k = 3) /\ z = 0)%nat
  | _ => False
  end.
Lemma valid_part_of : forall order f, is_ainsworth order f -> valid_part (part_of f).
Proof.
  intros order f H. destruct (in_ainsworth order f H) as [Hp Ho]. destruct f; try contradiction; cbn [proper3 proper_function part_of valid_part] in *; lia.
Qed.
Lemma vdot_edge : forall deg o i x y z t, vdot (phi0 o i x y z) t = 0 -> vdot (phi1 o i x y z) t = 0 ->
  vdot (field (EdgeAinsworthCoyle deg o i) x y z) t = 0.
Proof.
  intros deg o i x y z t H0 H1. destruct deg as [|[|n]]; cbn [field]; [exact H0|exact H1|]. unfold edge_high.
  assert (forall a b t, vdot (vadd a b) t = vdot a t + vdot b t) as A by (intros [[? ?] ?] [[? ?] ?] [[? ?] ?]; cbn; ring).
  rewrite A, !vdot_vmul, H0, H1. ring.
Qed.
Lemma ainsworth_vanish : forall order f j q, is_ainsworth order f -> valid_part j -> part_of f <> j -> (fst (fst j) <= fst (fst (part_of f)))%nat ->
  seen f (look j q) = 0.
Proof.
  intros order f [[r x] y] [u [v w]] H V N L. destruct (in_ainsworth order f H) as [Hp _]. pose proof (valid_part_of order f H) as Vf. clear H.
  destruct f; try contradiction; cbn [part_of fst proper3 proper_function valid_part] in *.
  - assert (r = 0%nat) as -> by lia. cbn [valid_part] in V.
    assert (x = o -> y = i -> False) as N' by (intros; subst; contradiction).
    small o; small i; small x; small y; try (exfalso; apply N'; reflexivity); unfold seen, look; shape;
      unfold edge_point, point_of; cbn [at_point fst snd]; apply vdot_edge; unfold phi0, phi1, weigh, corner; shape; cbn [vdot vsub vadd vmul dlam lam]; field.
  - destruct r as [|[|r]]; [| |lia]; cbn [valid_part] in V.
    + small opposing; small c; small x; small y; plain; field.
    + assert (x = opposing -> y = c -> False) as N' by (intros; subst; contradiction).
      small opposing; small c; small x; small y; try (exfalso; apply N'; reflexivity); plain; field.
  - destruct r as [|[|[|r]]]; [| | |lia]; cbn [valid_part] in V.
    + destruct Vf as [Hd Hk]. destruct Hk as [-> | ->]; small opposing; small x; small y; plain; field.
    + destruct Vf as [Hd Hk]. destruct Hk as [-> | ->]; small opposing; small x; small y; plain; field.
    + assert (x = opposing -> y = direction -> False) as N' by (intros; subst; contradiction).
      destruct Vf as [Hd Hk], V as [Hx Hy]. destruct Hk as [-> | ->]; destruct Hy as [-> | ->]; small opposing; small x; try (exfalso; apply N'; reflexivity); plain; field.
  - destruct r as [|[|[|[|r]]]]; [| | | |lia]; cbn [valid_part] in V.
    + small d; small x; small y; plain; field.
    + small d; small x; small y; plain; field.
    + destruct V as [Hx Hy]. destruct Hy as [-> | ->]; small d; small x; plain; field.
    + destruct V as [Hx ->]. assert (x = d -> False) as N' by (intros; subst; contradiction).
      small d; small x; try (exfalso; apply N'; reflexivity); plain; field.
  - destruct r as [|[|[|[|[|r]]]]]; [| | | | |lia]; cbn [valid_part] in V.
    + destruct Vf as [[-> |[-> | ->]] _]; small x; small y; plain; field.
    + destruct Vf as [[-> |[-> | ->]] _]; small x; small y; plain; field.
    + destruct V as [Hx Hy]. destruct Vf as [[-> |[-> | ->]] _]; destruct Hy as [-> | ->]; small x; plain; field.
    + destruct V as [Hx ->]. destruct Vf as [[-> |[-> | ->]] _]; small x; plain; field.
    + destruct V as [Hx ->]. assert (x = direction -> False) as N' by (intros; subst; contradiction).
      destruct Vf as [[-> |[-> | ->]] _]; destruct Hx as [-> |[-> | ->]]; try (exfalso; apply N'; reflexivity); plain; field.
Qed.
