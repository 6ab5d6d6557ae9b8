(** From order 7 on the functions are dependent: LobattoPolynomial 5 is a combination of LobattoPolynomial 1 and 3. *)
From Coq Require Import List Arith Lia ZArith Reals Lra Bool.
From Verif Require Import Legendre_model RefGeometry_model RefGeometry_spec RefGeometry_proofs BasisFunctions_model BasisSets_model BasisSets_proofs
  Independence_spec.
Import ListNotations.
Local Open Scope R_scope.

Lemma combination_cons : forall c cs v vs, combination (c :: cs) (v :: vs) = c * v + combination cs vs.
Proof. reflexivity. Qed.
Lemma combination_plus : forall A (F G : A -> R) l vs,
  combination (map (fun n => F n + G n) l) vs = combination (map F l) vs + combination (map G l) vs.
Proof.
  induction l as [|n l IH]; intros vs; [unfold combination, sum; cbn; ring|]. destruct vs as [|v vs]; [unfold combination, sum; cbn; ring|].
  cbn [map]. rewrite !combination_cons, IH. ring.
Qed.
Lemma combination_unit : forall a i vs start v, nth_error vs i = Some v ->
  combination (map (fun n => if Nat.eqb n (start + i) then a else 0) (seq start (length vs))) vs = a * v.
Proof.
  induction i; intros vs start v H; (destruct vs as [|w vs]; [discriminate|]); cbn [length seq map]; rewrite combination_cons.
  - injection H as ->. rewrite Nat.add_0_r, Nat.eqb_refl.
    assert (Z : forall start' vs, (start < start')%nat ->
      combination (map (fun n => if Nat.eqb n start then a else 0) (seq start' (length vs))) vs = 0); [|rewrite Z by lia; ring].
    clear. intros start' vs. revert start'. induction vs; intros start' L; [reflexivity|]. cbn [length seq map]. rewrite combination_cons.
    destruct (Nat.eqb_spec start' start); [lia|]. rewrite IHvs by lia. ring.
  - cbn in H. destruct (Nat.eqb_spec start (start + S i)); [lia|]. rewrite <- (IHi vs (S start) v H).
    replace (S start + i)%nat with (start + S i)%nat by lia. ring.
Qed.

Lemma dependent : forall s l f g h a b, In f l -> In g l -> In h l -> h <> f -> h <> g ->
  (forall p u v w, internal s p -> eval f p = Some u -> eval g p = Some v -> eval h p = Some w -> w = a * u + b * v) -> ~ independent s l.
Proof.
  intros s l f g h a b Hf Hg Hh N1 N2 E I.
  apply In_nth_error in Hf. destruct Hf as [i Hi]. apply In_nth_error in Hg. destruct Hg as [j Hj]. apply In_nth_error in Hh. destruct Hh as [k Hk].
  assert (k <> i) by congruence. assert (k <> j) by congruence.
  pose (F := fun n => (if Nat.eqb n (0 + i) then a else 0) + ((if Nat.eqb n (0 + j) then b else 0) + (if Nat.eqb n (0 + k) then -1 else 0))).
  specialize (I (map F (seq 0 (length l)))). rewrite map_length, seq_length in I. specialize (I eq_refl).
  assert (Forall (fun c => c = 0) (map F (seq 0 (length l)))) as A.
  { apply I. intros p vs Hp V. assert (length vs = length l) as L by (rewrite <- (map_length Some), <- V, map_length; reflexivity).
    assert (T : forall n q, nth_error l n = Some q -> exists v, nth_error vs n = Some v /\ eval q p = Some v).
    { intros n q Hn. assert (nth_error (map (fun f => eval f p) l) n = Some (eval q p)) as M by exact (map_nth_error (fun f => eval f p) n l Hn).
      rewrite V in M. destruct (nth_error vs n) as [v|] eqn:Ev.
      - rewrite (map_nth_error Some n vs Ev) in M. injection M as M. eauto.
      - apply nth_error_None in Ev. assert (n < length l)%nat by (apply nth_error_Some; congruence). lia. }
    destruct (T i f Hi) as [u [U1 U2]]. destruct (T j g Hj) as [v [V1 V2]]. destruct (T k h Hk) as [w [W1 W2]].
    unfold F. rewrite <- L. rewrite !combination_plus. rewrite (combination_unit a i vs 0 u U1), (combination_unit b j vs 0 v V1), (combination_unit (-1) k vs 0 w W1).
    rewrite (E p u v w Hp U2 V2 W2). ring. }
  rewrite Forall_forall in A. assert (k < length l)%nat by (apply nth_error_Some; congruence).
  specialize (A (F k)). assert (F k = 0) as Z. { apply A. apply in_map. apply in_seq. lia. }
  unfold F in Z. cbn [Nat.add] in Z. rewrite Nat.eqb_refl in Z. destruct (Nat.eqb_spec k i); [contradiction|]. destruct (Nat.eqb_spec k j); [contradiction|]. lra.
Qed.

Definition lobatto_b : R := 3 / 14 * (sqrt (13/2) / sqrt (9/2)).
Definition lobatto_a : R := (5 * sqrt (13/2) / 8 + 3 * lobatto_b * sqrt (9/2) / 4) / sqrt (5/2).
Lemma lobatto_5 : forall x, LobattoPolynomial 5 x = lobatto_a * LobattoPolynomial 1 x + lobatto_b * LobattoPolynomial 3 x.
Proof.
  intros x. unfold lobatto_a, lobatto_b. cbn [LobattoPolynomial]. assert (0 < sqrt (5/2)) by (apply sqrt_lt_R0; lra). assert (0 < sqrt (9/2)) by (apply sqrt_lt_R0; lra).
  field. split; lra.
Qed.

Lemma all_in : forall l r f, all l = Some r -> In (Some f) l -> In f r.
Proof.
  induction l as [|o l IH]; intros r f E H; [destruct H|]. cbn in E. destruct o as [g|]; [|discriminate]. cbn in E.
  destruct (all l) as [r'|] eqn:E'; [|discriminate]. cbn in E. injection E as <-. destruct H as [H|H]; [injection H as ->; left; reflexivity|].
  right. eapply IH; [reflexivity|exact H].
Qed.
Lemma loop_in : forall k n i, (i + k <= n)%nat -> In i (loop k n).
Proof. intros k n i H. apply in_seq. lia. Qed.

(** the function of degree o along the first edge *)
Definition along_edge (s : shape) (o : nat) : basis_function :=
  match s with
  | Line => InteriorLine o
  | Square => FaceSquare_0 (-1) 1 o
  | Triangle => FaceTriangle 1 0 o
  | Tetrahedron => EdgeTetrahedron 0 1 o
  | Cube => EdgeCube_0 (-1) (-1) 1 o
  | _ => EdgePrism_0 (-1) 0 1 o
  end.
Lemma along_edge_in : forall asserts s order l o, s <> Pyramid -> default_DG_set asserts s order = Some l -> (o + 2 <= order)%nat -> In (along_edge s o) l.
Proof.
  intros asserts s order l o N E L.
  assert (P : (0 <? order)%nat = true) by (apply Nat.ltb_lt; lia).
  destruct s; try contradiction; try discriminate; cbn [default_DG_set along_edge] in *;
    unfold createDGBasisFunctionSet1DH1Line, createDGBasisFunctionSet2DH1Square, createDGBasisFunctionSet2DH1Triangle,
      createDGBasisFunctionSet3DH1Tetrahedron, createDGBasisFunctionSet3DH1Cube, createDGBasisFunctionSet3DH1ConformingPrism in E;
    rewrite P in E; apply (all_in _ _ _ E); apply in_or_app; right.
  - apply in_map_iff. exists o. split; [reflexivity|]. apply loop_in; lia.
  - apply in_flat_map. exists o. split; [apply loop_in; lia|]. apply in_or_app. left. left. destruct asserts; reflexivity.
  - apply in_flat_map. exists o. split; [apply loop_in; lia|]. apply in_or_app. left. left. destruct asserts; reflexivity.
  - apply in_flat_map. exists o. split; [apply loop_in; lia|]. apply in_or_app. left. left. destruct asserts; reflexivity.
  - apply in_flat_map. exists o. split; [apply loop_in; lia|]. apply in_or_app. left. left. destruct asserts; reflexivity.
  - apply in_flat_map. exists o. split; [apply loop_in; lia|]. apply in_or_app. left. left. destruct asserts; reflexivity.
Qed.
Lemma some_inj : forall a b : R, Some a = Some b -> a = b.
Proof. intros a b H. injection H. auto. Qed.
Lemma along_edge_values : forall s p u v w, eval (along_edge s 1) p = Some u -> eval (along_edge s 3) p = Some v -> eval (along_edge s 5) p = Some w ->
  w = lobatto_a * u + lobatto_b * v.
Proof.
  intros s p u v w U V W.
  destruct s; cbn [along_edge eval] in *;
    unfold InteriorLine_eval, FaceSquare_0_eval, FaceTriangle_eval, EdgeTetrahedron_eval, EdgeCube_0_eval, EdgePrism_0_eval, bind, baricentric_2D, baricentric_3D in *;
    cbn [nth_error] in *;
    repeat match goal with H : match ?p with [] => _ | _ :: _ => _ end = Some _ |- _ => destruct p; try discriminate end;
    apply some_inj in U; apply some_inj in V; apply some_inj in W; rewrite <- U, <- V, <- W, lobatto_5; field.
Qed.
Lemma dg_dependent : forall asserts s order l, (7 <= order)%nat -> s <> Pyramid -> default_DG_set asserts s order = Some l -> ~ independent s l.
Proof.
  intros asserts s order l L N E.
  apply (dependent s l (along_edge s 1) (along_edge s 3) (along_edge s 5) lobatto_a lobatto_b);
    try (apply (along_edge_in asserts s order); [exact N|exact E|lia]); try (destruct s; discriminate).
  intros p u v w _. apply along_edge_values.
Qed.
Lemma twice_dependent : ~ independent Line [InteriorLine 1; InteriorLine 1].
Proof.
  intros I. specialize (I [1; -1] eq_refl).
  assert (Forall (fun c => c = 0) [1; -1]) as F.
  { apply I. intros p vs _ E. destruct vs as [|v [|w [|]]]; try discriminate. cbn [map] in E. injection E as E1 E2. rewrite E1 in E2. injection E2 as ->.
    unfold combination, sum. cbn. ring. }
  inversion F. lra.
Qed.
