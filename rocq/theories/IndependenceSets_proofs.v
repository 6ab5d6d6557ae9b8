(** Independence of sets of basis functions whose degrees are at most 4 (order 6). *)
From Coq Require Import List Arith Lia ZArith Reals Lra Bool.
From Verif Require Import Legendre_model RefGeometry_model RefGeometry_spec RefGeometry_proofs BasisFunctions_model BasisSets_model BasisSets_proofs
  FreeFamilies_proofs Independence_spec Independence_proofs.
Import ListNotations.
Local Open Scope R_scope.

Ltac inside := unfold internal; cbn; apply f_equal; repeat (apply andb_true_iff; split); apply leb_true; lra.

Definition unit_sign (e : Z) : bool := Z.eqb e 1 || Z.eqb e (-1).
Definition low (o : nat) : bool := (o <=? 4)%nat.
Definition at_end (e : Z) : nat := if Z.eqb e 1 then 1%nat else 0%nat.
Lemma at_end_value : forall e x, unit_sign e = true -> (1 + IZR e * x) / 2 = phi (at_end e) x.
Proof.
  intros e x H. unfold unit_sign in H. apply orb_true_iff in H. destruct H as [H|H]; apply Z.eqb_eq in H; subst; cbn; field.
Qed.
Lemma mirror_value : forall m o x, unit_sign m = true -> low o = true -> LobattoPolynomial o (IZR m * x) = IZR m ^ o * LobattoPolynomial o x.
Proof.
  intros m o x H L. apply Nat.leb_le in L. unfold unit_sign in H. apply orb_true_iff in H. destruct H as [H|H]; apply Z.eqb_eq in H; subst.
  - rewrite Rmult_1_l, pow1. ring.
  - replace (-1 * x) with (- x) by ring. apply lobatto_mirror. exact L.
Qed.
Lemma sign_nonzero : forall m o, unit_sign m = true -> IZR m ^ o <> 0.
Proof.
  intros m o H. apply pow_nonzero. unfold unit_sign in H. apply orb_true_iff in H. destruct H as [H|H]; apply Z.eqb_eq in H; subst; lra.
Qed.
Lemma phi_low : forall o, low o = true -> (S (S o) <= 6)%nat.
Proof. intros o L. apply Nat.leb_le in L. lia. Qed.
Lemma at_end_low : forall e, (at_end e <= 6)%nat.
Proof. intros e. unfold at_end. destruct (Z.eqb e 1); lia. Qed.
Lemma phi_interior : forall o x, phi (S (S o)) x = (1 - x) * (1 + x) / 4 * LobattoPolynomial o x.
Proof. reflexivity. Qed.
Ltac bools := repeat match goal with H : _ && _ = true |- _ => apply andb_true_iff in H; destruct H end.

(** ** Lines *)
Definition line_good (f : basis_function) : bool :=
  match f with VertexLine e => unit_sign e | InteriorLine o => low o | _ => false end.
Definition line_index (f : basis_function) : nat :=
  match f with VertexLine e => at_end e | InteriorLine o => S (S o) | _ => 0%nat end.
Lemma line_independent : forall l, forallb line_good l = true -> NoDup (map line_index l) -> independent Line l.
Proof.
  intros l G N. rewrite forallb_forall in G.
  apply (independent_from Line l phi (fun x => -1 <= x <= 1) (fun k => k <= 6)%nat line_index (fun _ => 1) (fun x => [x])).
  - exact phi_free.
  - exact N.
  - intros f Hf. apply G in Hf. destruct f; cbn in *; try discriminate; [apply at_end_low|apply phi_low; exact Hf].
  - intros; lra.
  - intros x Hx. inside.
  - intros f x Hf Hx. apply G in Hf. destruct f; cbn in Hf; try discriminate; cbn [eval VertexLine_eval InteriorLine_eval line_index]; f_equal.
    + rewrite at_end_value by exact Hf. ring.
    + rewrite phi_interior. field.
Qed.

(** ** Squares *)
Definition square_good (f : basis_function) : bool :=
  match f with
  | VertexSquare e0 e1 => unit_sign e0 && unit_sign e1
  | FaceSquare_0 e m o | FaceSquare_1 e m o => unit_sign e && unit_sign m && low o
  | InteriorSquare o0 o1 => low o0 && low o1
  | _ => false
  end.
Definition square_index (f : basis_function) : nat * nat :=
  match f with
  | VertexSquare e0 e1 => (at_end e0, at_end e1)
  | FaceSquare_0 e m o => (S (S o), at_end e)
  | FaceSquare_1 e m o => (at_end e, S (S o))
  | InteriorSquare o0 o1 => (S (S o0), S (S o1))
  | _ => (0, 0)%nat
  end.
Definition square_factor (f : basis_function) : R :=
  match f with FaceSquare_0 e m o | FaceSquare_1 e m o => IZR m ^ o | _ => 1 end.
Definition pair_eq_dec (a b : nat * nat) : {a = b} + {a <> b}.
Proof. decide equality; apply Nat.eq_dec. Defined.
Lemma square_independent : forall l, forallb square_good l = true -> NoDup (map square_index l) -> independent Square l.
Proof.
  intros l G N. rewrite forallb_forall in G.
  apply (independent_from Square l (product phi phi) (fun x => -1 <= fst x <= 1 /\ -1 <= snd x <= 1)
    (fun k => (fst k <= 6)%nat /\ (snd k <= 6)%nat) square_index square_factor (fun x => [fst x; snd x])).
  - apply (free_product Nat.eq_dec phi phi (fun x => -1 <= x <= 1) (fun x => -1 <= x <= 1)
      (fun k => k <= 6)%nat (fun k => k <= 6)%nat); exact phi_free.
  - exact N.
  - intros f Hf. apply G in Hf. destruct f; cbn in Hf; try discriminate; bools; cbn [square_index fst snd];
      split; first [apply at_end_low|apply phi_low; assumption].
  - intros f Hf. apply G in Hf. destruct f; cbn in Hf; try discriminate; bools; cbn; try lra; apply sign_nonzero; assumption.
  - intros x Hx. inside.
  - intros f x Hf Hx. apply G in Hf. destruct f; cbn in Hf; try discriminate; bools;
      cbn [eval VertexSquare_eval FaceSquare_0_eval FaceSquare_1_eval InteriorSquare_eval square_index square_factor];
      f_equal; unfold product; cbn [fst snd]; rewrite ?mirror_value by assumption; rewrite <- ?at_end_value by assumption;
      rewrite ?phi_interior; field.
Qed.

(** ** Cubes *)
Definition cube_good (f : basis_function) : bool :=
  match f with
  | VertexCube e0 e1 e2 => unit_sign e0 && unit_sign e1 && unit_sign e2
  | EdgeCube_0 e1 e2 m o | EdgeCube_1 e1 e2 m o | EdgeCube_2 e1 e2 m o => unit_sign e1 && unit_sign e2 && unit_sign m && low o
  | FaceCube_0 e m1 m2 o1 o2 | FaceCube_1 e m1 m2 o1 o2 | FaceCube_2 e m1 m2 o1 o2 =>
      unit_sign e && unit_sign m1 && unit_sign m2 && low o1 && low o2
  | InteriorCube o0 o1 o2 => low o0 && low o1 && low o2
  | _ => false
  end.
Definition cube_index (f : basis_function) : nat * (nat * nat) :=
  match f with
  | VertexCube e0 e1 e2 => (at_end e0, (at_end e1, at_end e2))
  | EdgeCube_0 e1 e2 m o => (S (S o), (at_end e1, at_end e2))
  | EdgeCube_1 e0 e2 m o => (at_end e0, (S (S o), at_end e2))
  | EdgeCube_2 e0 e1 m o => (at_end e0, (at_end e1, S (S o)))
  | FaceCube_0 e m1 m2 o1 o2 => (at_end e, (S (S o1), S (S o2)))
  | FaceCube_1 e m0 m2 o0 o2 => (S (S o0), (at_end e, S (S o2)))
  | FaceCube_2 e m0 m1 o0 o1 => (S (S o0), (S (S o1), at_end e))
  | InteriorCube o0 o1 o2 => (S (S o0), (S (S o1), S (S o2)))
  | _ => (0, (0, 0))%nat
  end.
Definition cube_factor (f : basis_function) : R :=
  match f with
  | EdgeCube_0 e1 e2 m o | EdgeCube_1 e1 e2 m o | EdgeCube_2 e1 e2 m o => IZR m ^ o
  | FaceCube_0 e m1 m2 o1 o2 | FaceCube_1 e m1 m2 o1 o2 | FaceCube_2 e m1 m2 o1 o2 => IZR m1 ^ o1 * IZR m2 ^ o2
  | _ => 1
  end.
Definition triple_eq_dec (a b : nat * (nat * nat)) : {a = b} + {a <> b}.
Proof. decide equality; [apply pair_eq_dec|apply Nat.eq_dec]. Defined.
Lemma cube_independent : forall l, forallb cube_good l = true -> NoDup (map cube_index l) -> independent Cube l.
Proof.
  intros l G N. rewrite forallb_forall in G.
  apply (independent_from Cube l (product phi (product phi phi))
    (fun x => -1 <= fst x <= 1 /\ -1 <= fst (snd x) <= 1 /\ -1 <= snd (snd x) <= 1)
    (fun k => (fst k <= 6)%nat /\ (fst (snd k) <= 6)%nat /\ (snd (snd k) <= 6)%nat) cube_index cube_factor
    (fun x => [fst x; fst (snd x); snd (snd x)])).
  - apply (free_product Nat.eq_dec phi (product phi phi) (fun x => -1 <= x <= 1) (fun x => -1 <= fst x <= 1 /\ -1 <= snd x <= 1)
      (fun k => k <= 6)%nat (fun k => (fst k <= 6)%nat /\ (snd k <= 6)%nat)); [exact phi_free|].
    apply (free_product Nat.eq_dec phi phi (fun x => -1 <= x <= 1) (fun x => -1 <= x <= 1)
      (fun k => k <= 6)%nat (fun k => k <= 6)%nat); exact phi_free.
  - exact N.
  - intros f Hf. apply G in Hf. destruct f; cbn in Hf; try discriminate; bools; cbn [cube_index fst snd];
      (split; [|split]); first [apply at_end_low|apply phi_low; assumption].
  - intros f Hf. apply G in Hf. destruct f; cbn in Hf; try discriminate; bools; cbn [cube_factor]; try lra;
      first [apply sign_nonzero; assumption|apply Rmult_integral_contrapositive; split; apply sign_nonzero; assumption].
  - intros x Hx. inside.
  - intros f x Hf Hx. apply G in Hf. destruct f; cbn in Hf; try discriminate; bools;
      cbn [eval VertexCube_eval EdgeCube_0_eval EdgeCube_1_eval EdgeCube_2_eval FaceCube_0_eval FaceCube_1_eval FaceCube_2_eval
        InteriorCube_eval cube_index cube_factor];
      f_equal; unfold product; cbn [fst snd]; rewrite ?mirror_value by assumption; rewrite <- ?at_end_value by assumption;
      rewrite ?phi_interior; field.
Qed.

(** ** Simplices *)
(** the nodes of a part and the degrees along them *)
Definition simplex_index (f : basis_function) : list nat * list nat :=
  match f with
  | VertexTriangle n | VertexTetrahedron n => ([n], [])
  | FaceTriangle n0 n1 o => ([n1; n0], [o])
  | InteriorTriangle o0 o1 => ([0; 1; 2], [o0; o1])%nat
  | EdgeTetrahedron n0 n1 o => ([n0; n1], [o])
  | FaceTetrahedron n0 n1 n2 o0 o1 => ([n0; n1; n2], [o0; o1])
  | InteriorTetrahedron o0 o1 o2 => ([0; 1; 2; 3], [o0; o1; o2])%nat
  | _ => ([], [])
  end.
Definition nodes_below (d : nat) (J : list nat) : bool := forallb (fun n => n <=? d)%nat J.
Definition triangle_good (f : basis_function) : bool :=
  match f with
  | VertexTriangle n => (n <=? 2)%nat
  | FaceTriangle n0 n1 o => nodes_below 2 [n0; n1] && low o
  | InteriorTriangle o0 o1 => low o0 && low o1
  | _ => false
  end.
Definition tetrahedron_good (f : basis_function) : bool :=
  match f with
  | VertexTetrahedron n => (n <=? 3)%nat
  | EdgeTetrahedron n0 n1 o => nodes_below 3 [n0; n1] && low o
  | FaceTetrahedron n0 n1 n2 o0 o1 => nodes_below 3 [n0; n1; n2] && low o0 && low o1
  | InteriorTetrahedron o0 o1 o2 => low o0 && low o1 && low o2
  | _ => false
  end.
(** parts that differ do so as sets *)
Definition apart (J K : list nat) : Prop := J = K \/ (length J < length K)%nat \/ exists n, In n J /\ ~ In n K.
Definition apartb (J K : list nat) : bool :=
  (if list_eq_dec Nat.eq_dec J K then true else false) || (length J <? length K)%nat ||
  existsb (fun n => if in_dec Nat.eq_dec n K then false else true) J.
Lemma apartb_true : forall J K, apartb J K = true -> apart J K.
Proof.
  intros J K H. unfold apartb in H. apply orb_true_iff in H. destruct H as [H|H]; [apply orb_true_iff in H; destruct H as [H|H]|].
  - left. destruct (list_eq_dec Nat.eq_dec J K); [assumption|discriminate].
  - right; left. apply Nat.ltb_lt. exact H.
  - right; right. apply existsb_exists in H. destruct H as [n [A B]]. exists n. split; [exact A|].
    destruct (in_dec Nat.eq_dec n K); [discriminate|assumption].
Qed.
Definition proper_parts (d : nat) (parts : list (list nat)) : Prop :=
  (forall J, In J parts -> NoDup J /\ (1 <= length J <= 4)%nat /\ forall n, In n J -> (n <= d)%nat) /\
  forall J K, In J parts -> In K parts -> apart J K.
Lemma proper_free : forall d parts, (d <= 3)%nat -> proper_parts d parts ->
  free simplex_function (in_simplex d) (fun i => In (fst i) parts /\ cond (fst i) (snd i)).
Proof.
  intros d parts Hd [H1 H2]. apply simplex_free; [exact Hd|exact H1|]. intros J K HJ HK N L.
  destruct (H2 J K HJ HK) as [E|[E|E]]; [contradiction|lia|exact E].
Qed.
Lemma low_le : forall o, low o = true -> (o <= 4)%nat.
Proof. intros o H. apply Nat.leb_le. exact H. Qed.

Lemma triangle_values : forall f c, triangle_good f = true -> in_simplex 2 c ->
  eval f [c 1%nat; c 2%nat] = Some (simplex_function (simplex_index f) c).
Proof.
  intros f c G [_ [_ S]]. cbn [coordinate_sum] in S. assert (B : forall n, (n <= 2)%nat -> baricentric_2D n (c 1%nat) (c 2%nat) = Some (c n)).
  { intros n L. destruct n as [|[|[|n]]]; [|reflexivity|reflexivity|lia]. cbn. f_equal. lra. }
  destruct f; cbn in G; try discriminate; bools; repeat match goal with H : (_ <=? _)%nat = true |- _ => apply Nat.leb_le in H end;
    cbn [eval VertexTriangle_eval FaceTriangle_eval InteriorTriangle_eval];
    rewrite ?B by first [assumption|lia]; cbn [bind]; f_equal; unfold simplex_function, bubble; cbn [simplex_index fst snd along fold_right]; ring.
Qed.
Lemma tetrahedron_values : forall f c, tetrahedron_good f = true -> in_simplex 3 c ->
  eval f [c 1%nat; c 2%nat; c 3%nat] = Some (simplex_function (simplex_index f) c).
Proof.
  intros f c G [_ [_ S]]. cbn [coordinate_sum] in S.
  assert (B : forall n, (n <= 3)%nat -> baricentric_3D n (c 1%nat) (c 2%nat) (c 3%nat) = Some (c n)).
  { intros n L. destruct n as [|[|[|[|n]]]]; [|reflexivity|reflexivity|reflexivity|lia]. cbn. f_equal. lra. }
  destruct f; cbn in G; try discriminate; bools; repeat match goal with H : (_ <=? _)%nat = true |- _ => apply Nat.leb_le in H end;
    cbn [eval VertexTetrahedron_eval EdgeTetrahedron_eval FaceTetrahedron_eval InteriorTetrahedron_eval];
    rewrite ?B by first [assumption|lia]; cbn [bind]; f_equal; unfold simplex_function, bubble; cbn [simplex_index fst snd along fold_right]; ring.
Qed.
Ltac condition := split; [reflexivity|]; cbn; repeat (apply Forall_cons; [apply low_le; assumption|]); apply Forall_nil.
Lemma triangle_cond : forall f, triangle_good f = true -> cond (fst (simplex_index f)) (snd (simplex_index f)).
Proof. intros f G. destruct f; cbn in G; try discriminate; bools; condition. Qed.
Lemma tetrahedron_cond : forall f, tetrahedron_good f = true -> cond (fst (simplex_index f)) (snd (simplex_index f)).
Proof. intros f G. destruct f; cbn in G; try discriminate; bools; condition. Qed.

Definition parts_of (l : list basis_function) : list (list nat) := map (fun f => fst (simplex_index f)) l.
Lemma triangle_independent : forall l, forallb triangle_good l = true -> proper_parts 2 (parts_of l) -> NoDup (map simplex_index l) ->
  independent Triangle l.
Proof.
  intros l G PP N. rewrite forallb_forall in G.
  apply (independent_from Triangle l simplex_function (in_simplex 2) (fun i => In (fst i) (parts_of l) /\ cond (fst i) (snd i))
    simplex_index (fun _ => 1) (fun c => [c 1%nat; c 2%nat])).
  - apply proper_free; [lia|exact PP].
  - exact N.
  - intros f Hf. split; [apply in_map_iff; exists f; auto|apply triangle_cond; auto].
  - intros; lra.
  - intros c [P [_ S]]. cbn [coordinate_sum] in S. assert (A := P 0%nat). assert (B := P 1%nat). assert (C := P 2%nat). inside.
  - intros f c Hf Hc. rewrite Rmult_1_l. apply triangle_values; auto.
Qed.
Lemma tetrahedron_independent : forall l, forallb tetrahedron_good l = true -> proper_parts 3 (parts_of l) -> NoDup (map simplex_index l) ->
  independent Tetrahedron l.
Proof.
  intros l G PP N. rewrite forallb_forall in G.
  apply (independent_from Tetrahedron l simplex_function (in_simplex 3) (fun i => In (fst i) (parts_of l) /\ cond (fst i) (snd i))
    simplex_index (fun _ => 1) (fun c => [c 1%nat; c 2%nat; c 3%nat])).
  - apply proper_free; [lia|exact PP].
  - exact N.
  - intros f Hf. split; [apply in_map_iff; exists f; auto|apply tetrahedron_cond; auto].
  - intros; lra.
  - intros c [P [_ S]]. cbn [coordinate_sum] in S. assert (A := P 0%nat). assert (B := P 1%nat). assert (C := P 2%nat). assert (D := P 3%nat). inside.
  - intros f c Hf Hc. rewrite Rmult_1_l. apply tetrahedron_values; auto.
Qed.

(** ** Prisms *)
Definition prism_good (f : basis_function) : bool :=
  match f with
  | VertexPrism e n => unit_sign e && nodes_below 2 [n]
  | EdgePrism_0 e n0 n1 o => unit_sign e && nodes_below 2 [n0; n1] && low o
  | EdgePrism_1 m n o => unit_sign m && nodes_below 2 [n] && low o
  | FacePrism_0 e o0 o1 n0 n1 n2 => unit_sign e && nodes_below 2 [n0; n1; n2] && low o0 && low o1
  | FacePrism_1 m n0 n1 o0 o1 => unit_sign m && nodes_below 2 [n0; n1] && low o0 && low o1
  | InteriorPrism o0 o1 o2 => low o0 && low o1 && low o2
  | _ => false
  end.
Definition prism_index (f : basis_function) : (list nat * list nat) * nat :=
  match f with
  | VertexPrism e n => (([n], []), at_end e)
  | EdgePrism_0 e n0 n1 o => (([n0; n1], [o]), at_end e)
  | EdgePrism_1 m n o => (([n], []), S (S o))
  | FacePrism_0 e o0 o1 n0 n1 n2 => (([n0; n1; n2], [o0; o1]), at_end e)
  | FacePrism_1 m n0 n1 o0 o1 => (([n0; n1], [o0]), S (S o1))
  | InteriorPrism o0 o1 o2 => (([0; 1; 2]%nat, [o0; o1]), S (S o2))
  | _ => (([], []), 0%nat)
  end.
Definition prism_factor (f : basis_function) : R :=
  match f with EdgePrism_1 m n o => IZR m ^ o | FacePrism_1 m n0 n1 o0 o1 => IZR m ^ o1 | _ => 1 end.
(** bottom, top or between *)
Definition level (k : nat) : nat := match k with 0 => 0 | 1 => 1 | _ => 2 end%nat.
Definition level_parts (l : list basis_function) (j : nat) : list (list nat) :=
  map (fun f => fst (fst (prism_index f))) (filter (fun f => Nat.eqb (level (snd (prism_index f))) j) l).

Definition index_dec (a b : list nat * list nat) : {a = b} + {a <> b}.
Proof. decide equality; apply (list_eq_dec Nat.eq_dec). Defined.
Lemma prism_family : forall (parts : nat -> list (list nat)), (forall j, proper_parts 2 (parts j)) ->
  free (product simplex_function phi) (fun cz => in_simplex 2 (fst cz) /\ -1 <= snd cz <= 1)
    (fun ik => (In (fst (fst ik)) (parts (level (snd ik))) /\ cond (fst (fst ik)) (snd (fst ik))) /\ (snd ik <= 6)%nat).
Proof.
  intros parts PP.
  apply (free_parts Nat.eq_dec) with (part := fun ik => level (snd ik)) (rank := fun j => (j / 2)%nat)
    (DJ := fun j cz => in_simplex 2 (fst cz) /\ match j with 0%nat => snd cz = -1 | 1%nat => snd cz = 1 | _ => -1 < snd cz < 1 end).
  - intros [i k] [c z] _ [H1 H2]. cbn [fst snd] in *. split; [exact H1|]. destruct k as [|[|k]]; cbn in H2; lra.
  - intros [i k] [i' k'] [c z] _ _ [_ H2] N L. unfold product. cbn [fst snd] in *.
    destruct k as [|[|k]], k' as [|[|k']]; cbn in H2, N, L; subst; try contradiction; try lia; cbn [phi]; field.
  - intros [i k] _. cbn [snd].
    assert (ends : forall e z, (e = 0%nat /\ z = -1 \/ e = 1%nat /\ z = 1) ->
      free (product simplex_function phi) (fun cz => in_simplex 2 (fst cz) /\ snd cz = z)
        (fun ik => ((In (fst (fst ik)) (parts (level (snd ik))) /\ cond (fst (fst ik)) (snd (fst ik))) /\ (snd ik <= 6)%nat) /\ snd ik = e)).
    { intros e z Ez.
      apply free_map with (chi := simplex_function) (E := in_simplex 2) (Q := fun i => In (fst i) (parts (level e)) /\ cond (fst i) (snd i))
        (kappa := fst) (a := fun _ => 1) (s := fun _ => 1) (g := fun c => (c, z)).
      - apply proper_free; [lia|apply PP].
      - intros [i0 k0] [[H _] E]. cbn in *. subst. exact H.
      - intros [i0 k0] [i1 k1] [_ E0] [_ E1] E. cbn in *. subst. reflexivity.
      - intros c Hc. cbn. auto.
      - intros; lra.
      - intros; lra.
      - intros [i0 k0] c [_ E] _. unfold product. cbn [fst snd] in *. subst k0. destruct Ez as [[-> ->]|[-> ->]]; cbn [phi]; field. }
    destruct k as [|[|k]]; cbn [level].
    + eapply free_less; [apply (ends 0%nat (-1)); left; auto|auto|]. intros [i0 k0] [H E]. split; [exact H|]. cbn in *. destruct k0 as [|[|]]; cbn in E; congruence.
    + eapply free_less; [apply (ends 1%nat 1); right; auto|auto|]. intros [i0 k0] [H E]. split; [exact H|]. cbn in *. destruct k0 as [|[|]]; cbn in E; congruence.
    + assert (F := free_product index_dec simplex_function phi (in_simplex 2) (fun z => -1 < z < 1)
        (fun i => In (fst i) (parts 2%nat) /\ cond (fst i) (snd i)) (fun k => 2 <= k <= 6)%nat
        (proper_free 2 (parts 2%nat) (le_S _ _ (le_n 2)) (PP 2%nat)) phi_interior_free).
      eapply free_less; [exact F|auto|]. intros [i0 k0] [[H H'] E]. cbn [fst snd] in *.
      destruct k0 as [|[|k0]]; cbn in E; try discriminate. split; [exact H|]. lia.
Qed.
Lemma prism_independent : forall l, forallb prism_good l = true -> (forall j, proper_parts 2 (level_parts l j)) ->
  NoDup (map prism_index l) -> independent TriangularPrism l.
Proof.
  intros l G PP N. rewrite forallb_forall in G.
  apply (independent_from TriangularPrism l (product simplex_function phi) (fun cz => in_simplex 2 (fst cz) /\ -1 <= snd cz <= 1)
    (fun ik => (In (fst (fst ik)) (level_parts l (level (snd ik))) /\ cond (fst (fst ik)) (snd (fst ik))) /\ (snd ik <= 6)%nat)
    prism_index prism_factor (fun cz => [fst cz 1%nat; fst cz 2%nat; snd cz])).
  - apply prism_family. exact PP.
  - exact N.
  - intros f Hf. split; [split|].
    + apply in_map_iff. exists f. split; [reflexivity|]. apply filter_In. split; [exact Hf|apply Nat.eqb_refl].
    + apply G in Hf. destruct f; cbn in Hf; try discriminate; bools; condition.
    + apply G in Hf. destruct f; cbn in Hf; try discriminate; bools; cbn [prism_index snd]; first [apply at_end_low|apply phi_low; assumption].
  - intros f Hf. apply G in Hf. destruct f; cbn in Hf; try discriminate; bools; cbn [prism_factor]; try lra; apply sign_nonzero; assumption.
  - intros [c z] [[P [_ S]] Hz]. cbn [coordinate_sum fst snd] in *. assert (A := P 0%nat). assert (B := P 1%nat). assert (C := P 2%nat). inside.
  - intros f [c z] Hf [[P [_ S]] Hz]. apply G in Hf. cbn [coordinate_sum fst snd] in *.
    assert (B : forall n, (n <= 2)%nat -> baricentric_2D n (c 1%nat) (c 2%nat) = Some (c n)).
    { intros n L. destruct n as [|[|[|n]]]; [|reflexivity|reflexivity|lia]. cbn. f_equal. lra. }
    destruct f; cbn in Hf; try discriminate; bools;
      repeat match goal with H : (_ <=? _)%nat = true |- _ => apply Nat.leb_le in H end;
      cbn [eval VertexPrism_eval EdgePrism_0_eval EdgePrism_1_eval FacePrism_0_eval FacePrism_1_eval InteriorPrism_eval];
      rewrite ?B by first [assumption|lia]; cbn [bind]; f_equal; unfold product, simplex_function, bubble;
      cbn [prism_index prism_factor fst snd along fold_right]; rewrite ?mirror_value by assumption; rewrite <- ?at_end_value by assumption;
      rewrite ?phi_interior; field.
Qed.
