(** Linear independence of the curl conforming functions. *)
From Coq Require Import List Arith Bool ZArith Reals Lra Lia.
From Verif Require Import Legendre_model RefGeometry_model RefGeometry_spec RefGeometry_proofs BasisFunctions_model BasisSets_model Independence_spec FreeFamilies_proofs
  CurlBasis_model CurlBasis_spec CurlBasis_proofs CurlTraces_proofs.
Import ListNotations.
Local Open Scope R_scope.

Definition vdot (a b : vec) : R := let '(a0, a1, a2) := a in let '(b0, b1, b2) := b in a0 * b0 + a1 * b1 + a2 * b2.
Definition inside (p : vec) : Prop := let '(x, y, z) := p in 0 <= x /\ 0 <= y /\ 0 <= z /\ x + y + z <= 1.
Definition at_point (f : curl_function) (p : vec) : vec := let '(x, y, z) := p in field f x y z.
(** the value of a function in a point, seen in a direction *)
Definition seen (f : curl_function) (pt : vec * vec) : R := vdot (at_point f (fst pt)) (snd pt).
Lemma inside_internal : forall x y z, inside (x, y, z) -> internal Tetrahedron [x; y; z].
Proof.
  intros x y z (Hx & Hy & Hz & H). unfold internal, isInternalPoint. f_equal.
  rewrite !andb_true_iff, !leb_true. lra.
Qed.

Lemma combination_cons : forall c cs v vs, combination (c :: cs) (v :: vs) = c * v + combination cs vs.
Proof. intros. unfold combination, sum. reflexivity. Qed.
Lemma free_independent : forall l, NoDup l -> (forall f, In f l -> proper3 f) -> free seen (fun pt => inside (fst pt)) (fun f => In f l) ->
  curl_independent Tetrahedron l.
Proof.
  intros l N Hp F cs Lc Z.
  assert (map snd (combine cs l) = l) as M.
  { clear - Lc. revert cs Lc. induction l as [|f l IH]; intros [|c cs] Lc; try discriminate; [reflexivity|]. cbn in *. f_equal. apply IH. lia. }
  assert (forall c f, In (c, f) (combine cs l) -> c = 0) as G.
  { apply F.
    - rewrite M. exact N.
    - intros i Hi. rewrite M in Hi. exact Hi.
    - intros [[[x y] z] [[t0 t1] t2]] Hin. cbn [fst] in Hin.
      assert (map (fun f => curl_eval f [x; y; z]) l = map Some (map (fun f => list_of (field f x y z)) l)) as E.
      { rewrite map_map. apply map_ext_in. intros f Hf. apply eval_field. auto. }
      pose proof (Z [x; y; z] _ (inside_internal _ _ _ Hin) E) as Zk.
      refine (eq_trans (_ : total seen (combine cs l) (x, y, z, (t0, t1, t2))
        = combination cs (map (fun v => nth 0 v 0) (map (fun f => list_of (field f x y z)) l)) * t0
        + combination cs (map (fun v => nth 1 v 0) (map (fun f => list_of (field f x y z)) l)) * t1
        + combination cs (map (fun v => nth 2 v 0) (map (fun f => list_of (field f x y z)) l)) * t2) _).
      { clear - Lc. revert cs Lc. induction l as [|f l IH]; intros [|c cs] Lc; try discriminate; [cbn; unfold combination, sum; cbn; ring|].
        cbn [combine total map]. rewrite !combination_cons. rewrite IH by (cbn in Lc; lia).
        unfold seen, at_point. cbn [fst snd]. destruct (field f x y z) as [[a b] d]. cbn. ring. }
      rewrite !Zk by (cbn; lia). ring. }
  apply Forall_forall. intros c Hc.
  assert (exists f, In (c, f) (combine cs l)) as [f Hf].
  { clear - Lc Hc. revert cs Lc Hc. induction l as [|f l IH]; intros [|c' cs] Lc Hc; try discriminate; [destruct Hc|].
    cbn in Lc. destruct Hc as [->|Hc]; [exists f; left; reflexivity|]. destruct (IH cs) as [f' H']; [lia|exact Hc|]. exists f'. right. exact H'. }
  exact (G c f Hf).
Qed.

Lemma nodup_flat_map : forall {A B} (f : A -> list B) l, NoDup l -> (forall i, In i l -> NoDup (f i)) ->
  (forall i j x, In i l -> In j l -> In x (f i) -> In x (f j) -> i = j) -> NoDup (flat_map f l).
Proof.
  intros A B f l. induction l as [|i l IH]; intros N H1 H2; [constructor|]. apply NoDup_cons_iff in N. destruct N as [N1 N2]. cbn [flat_map].
  assert (forall (a b : list B), NoDup a -> NoDup b -> (forall x, In x a -> ~ In x b) -> NoDup (a ++ b)) as NA.
  { clear. induction a as [|x a IH]; intros b Ha Hb D; [exact Hb|]. apply NoDup_cons_iff in Ha. destruct Ha as [Hx Ha]. cbn. constructor.
    - rewrite in_app_iff. intros [H|H]; [contradiction|]. exact (D x (or_introl eq_refl) H).
    - apply IH; auto. intros y Hy. apply D. right. exact Hy. }
  apply NA.
  - apply H1. left. reflexivity.
  - apply IH; [exact N2|intros; apply H1; right; assumption|]. intros a b x Ha Hb. apply H2; right; assumption.
  - intros x Hx Hx'. apply in_flat_map in Hx'. destruct Hx' as (j & Hj & Hx'). apply N1.
    rewrite (H2 i j x (or_introl eq_refl) (or_intror Hj) Hx Hx'). exact Hj.
Qed.
Lemma nodup_app : forall {B} (a b : list B), NoDup a -> NoDup b -> (forall x, In x a -> ~ In x b) -> NoDup (a ++ b).
Proof.
  induction a as [|x a IH]; intros b Ha Hb D; [exact Hb|]. apply NoDup_cons_iff in Ha. destruct Ha as [Hx Ha]. cbn. constructor.
  - rewrite in_app_iff. intros [H|H]; [contradiction|]. exact (D x (or_introl eq_refl) H).
  - apply IH; auto. intros y Hy. apply D. right. exact Hy.
Qed.
Lemma loop_nodup : forall k n, NoDup (loop k n).
Proof. intros. apply seq_NoDup. Qed.
Ltac nodup_list := repeat constructor; cbn [In]; intuition congruence.

Lemma nedelec_nodup : forall order, NoDup (createDGBasisFunctionSet3DNedelec order).
Proof.
  intros order. unfold createDGBasisFunctionSet3DNedelec. apply nodup_app; [|apply nodup_app|].
  - apply nodup_flat_map; [apply loop_nodup|intros; cbn zeta; nodup_list|]. cbn zeta. intros i j x _ _ Hi Hj. in_list Hi; cbn [In] in Hj; intuition congruence.
  - destruct (1 <? order); [|constructor].
    apply nodup_flat_map; [apply loop_nodup| |].
    + intros l _. apply nodup_flat_map; [apply loop_nodup|intros; cbn zeta; nodup_list|]. cbn zeta. intros i j x _ _ Hi Hj. in_list Hi; cbn [In] in Hj; intuition congruence.
    + intros i j x _ _ Hi Hj. apply in_flat_map in Hi, Hj. destruct Hi as (m & _ & Hi), Hj as (m' & _ & Hj). cbn zeta in *. in_list Hi; cbn [In] in Hj; intuition congruence.
  - destruct (2 <? order); [|constructor].
    apply nodup_flat_map; [apply loop_nodup| |].
    + intros l _. apply nodup_flat_map; [apply loop_nodup| |].
      * intros m _. apply nodup_flat_map; [apply loop_nodup|intros; cbn zeta; nodup_list|]. cbn zeta. intros i j x _ _ Hi Hj. in_list Hi; cbn [In] in Hj; intuition congruence.
      * intros i j x _ _ Hi Hj. apply in_flat_map in Hi, Hj. destruct Hi as (m & _ & Hi), Hj as (m' & _ & Hj). cbn zeta in *. in_list Hi; cbn [In] in Hj; intuition congruence.
    + intros i j x _ _ Hi Hj. apply in_flat_map in Hi, Hj. destruct Hi as (m & _ & Hi), Hj as (m' & _ & Hj).
      apply in_flat_map in Hi, Hj. destruct Hi as (n & _ & Hi), Hj as (n' & _ & Hj). cbn zeta in *. in_list Hi; cbn [In] in Hj; intuition congruence.
  - destruct (1 <? order); [|intros x []]. destruct (2 <? order); [|intros x _ []].
    intros x Hi Hj. apply in_flat_map in Hi, Hj. destruct Hi as (m & _ & Hi), Hj as (m' & _ & Hj).
    apply in_flat_map in Hi, Hj. destruct Hi as (n & _ & Hi), Hj as (n' & _ & Hj).
    apply in_flat_map in Hj. destruct Hj as (o & _ & Hj). cbn zeta in *. in_list Hi; cbn [In] in Hj; intuition congruence.
  - intros x Hi Hj. apply in_flat_map in Hi. destruct Hi as (m & _ & Hi). cbn zeta in *. apply in_app_or in Hj. destruct Hj as [Hj|Hj].
    + destruct (1 <? order); [|destruct Hj]. apply in_flat_map in Hj. destruct Hj as (m' & _ & Hj). apply in_flat_map in Hj. destruct Hj as (n' & _ & Hj).
      in_list Hi; cbn [In] in Hj; intuition congruence.
    + destruct (2 <? order); [|destruct Hj]. apply in_flat_map in Hj. destruct Hj as (m' & _ & Hj). apply in_flat_map in Hj. destruct Hj as (n' & _ & Hj).
      apply in_flat_map in Hj. destruct Hj as (o' & _ & Hj). in_list Hi; cbn [In] in Hj; intuition congruence.
Qed.

(** ** The functions of Nedelec *)
Definition first_of (f : curl_function) : nat :=
  match f with
  | EdgeNedelec _ _ i _ => i
  | Face1Nedelec _ _ _ d => let '(a, _, _) := face_vertices d in a
  | Face2Nedelec _ _ _ d => let '(_, b, _) := face_vertices d in b
  | Interior2Nedelec _ _ _ _ => 1
  | Interior3Nedelec _ _ _ _ => 2
  | _ => 0
  end%nat.
Definition place (a l n : nat) : nat := if Nat.eqb n a then l else 0%nat.
Definition exponent (f : curl_function) (n : nat) : nat :=
  match f with
  | EdgeNedelec l m i j => (place i l n + place j (S m) n)%nat
  | Face1Nedelec l m k d => let '(a, b, c) := face_vertices d in (place a l n + place b (S m) n + place c (S k) n)%nat
  | Face2Nedelec l m k d => let '(a, b, c) := face_vertices d in (place a (S l) n + place b m n + place c (S k) n)%nat
  | Interior1Nedelec l m k o => (place 0 l n + place 1 (S m) n + place 2 (S k) n + place 3 (S o) n)%nat
  | Interior2Nedelec l m k o => (place 0 (S l) n + place 1 m n + place 2 (S k) n + place 3 (S o) n)%nat
  | Interior3Nedelec l m k o => (place 0 (S l) n + place 1 (S m) n + place 2 k n + place 3 (S o) n)%nat
  | _ => 0%nat
  end.
Definition corner (k : nat) : vec := match k with O => (0, 0, 0) | S O => (1, 0, 0) | S (S O) => (0, 1, 0) | _ => (0, 0, 1) end.
Definition delta (n k : nat) : R := if Nat.eqb n k then 1 else 0.
Lemma dlam_corner : forall n k x y z, (n < 4)%nat -> (k < 4)%nat -> vdot (dlam n) (vsub (corner k) (x, y, z)) = delta n k - lam n x y z.
Proof.
  intros n k x y z Hn Hk. destruct n as [|[|[|[|n]]]]; try lia; (destruct k as [|[|[|[|k]]]]; try lia); unfold delta; cbn; ring.
Qed.
Lemma vdot_vmul : forall v s t, vdot (vmul v s) t = vdot v t * s.
Proof. intros [[? ?] ?] s [[? ?] ?]. cbn. ring. Qed.
Lemma vdot_vsub : forall v w t, vdot (vsub v w) t = vdot v t - vdot w t.
Proof. intros [[? ?] ?] [[? ?] ?] [[? ?] ?]. cbn. ring. Qed.
Lemma whitney_corner : forall i j k x y z, (i < 4)%nat -> (j < 4)%nat -> (k < 4)%nat ->
  vdot (w_field i j x y z) (vsub (corner k) (x, y, z)) = delta i k * lam j x y z - delta j k * lam i x y z.
Proof. intros. unfold w_field. rewrite vdot_vsub, !vdot_vmul, !dlam_corner by assumption. ring. Qed.

Definition is_nedelec (order : nat) (f : curl_function) : Prop := In f (createDGBasisFunctionSet3DNedelec order).
Ltac small n := destruct n as [|[|[|[|n]]]]; try lia.
Lemma nedelec_seen : forall order f k x y z, is_nedelec order f -> (k < 3)%nat -> (k <= first_of f)%nat ->
  seen f ((x, y, z), vsub (corner k) (x, y, z)) =
  if Nat.eqb k (first_of f) then lam 0 x y z ^ exponent f 0 * lam 1 x y z ^ exponent f 1 * lam 2 x y z ^ exponent f 2 * lam 3 x y z ^ exponent f 3 else 0.
Proof.
  intros order f k x y z H Hk Hf. unfold seen. cbn [fst snd at_point].
  destruct (in_nedelec order f H) as [Hp Ho]. destruct f; try contradiction; cbn [proper3 proper_function] in Hp.
  - destruct Hp as (Hi & Hj & _), Ho as (_ & Hij). cbn [field first_of exponent] in *. rewrite vdot_vmul, whitney_corner by lia.
    small i; small j; small k; unfold delta, place; cbn [Nat.eqb Nat.add]; rewrite ?Nat.add_0_r; cbn [pow]; ring.
  - small d; cbn [field face_vertices skip Nat.eqb first_of exponent] in *; rewrite vdot_vmul, whitney_corner by lia;
      small k; unfold delta, place; cbn [Nat.eqb Nat.add]; rewrite ?Nat.add_0_r, ?Nat.add_1_r; cbn [pow]; ring.
  - small d; cbn [field face_vertices skip Nat.eqb first_of exponent] in *; rewrite vdot_vmul, whitney_corner by lia;
      small k; unfold delta, place; cbn [Nat.eqb Nat.add]; rewrite ?Nat.add_0_r, ?Nat.add_1_r; cbn [pow]; ring.
  - cbn [field first_of exponent] in *; rewrite vdot_vmul, whitney_corner by lia;
      small k; unfold delta, place; cbn [Nat.eqb Nat.add]; rewrite ?Nat.add_0_r, ?Nat.add_1_r; cbn [pow]; ring.
  - cbn [field first_of exponent] in *; rewrite vdot_vmul, whitney_corner by lia;
      small k; unfold delta, place; cbn [Nat.eqb Nat.add]; rewrite ?Nat.add_0_r, ?Nat.add_1_r; cbn [pow]; ring.
  - cbn [field first_of exponent] in *; rewrite vdot_vmul, whitney_corner by lia;
      small k; unfold delta, place; cbn [Nat.eqb Nat.add]; rewrite ?Nat.add_0_r, ?Nat.add_1_r; cbn [pow]; ring.
Qed.
Lemma nedelec_first : forall order f, is_nedelec order f -> (first_of f < 3)%nat.
Proof.
  intros order f H. destruct (in_nedelec order f H) as [Hp Ho]. destruct f; try contradiction; cbn [proper3 proper_function first_of] in *;
    try lia; small d; cbn; lia.
Qed.
Lemma nedelec_total : forall order f, is_nedelec order f -> (exponent f 0 + exponent f 1 + exponent f 2 + exponent f 3 = order)%nat.
Proof.
  intros order f H. destruct (in_nedelec order f H) as [Hp Ho]. destruct f; try contradiction; cbn [proper3 proper_function exponent] in *.
  - destruct Hp as (Hi & Hj & _), Ho as (Ho & Hij). small i; small j; unfold place; cbn [Nat.eqb]; lia.
  - small d; cbn; unfold place; cbn [Nat.eqb]; lia.
  - small d; cbn; unfold place; cbn [Nat.eqb]; lia.
  - unfold place; cbn [Nat.eqb]; lia.
  - unfold place; cbn [Nat.eqb]; lia.
  - unfold place; cbn [Nat.eqb]; lia.
Qed.
Lemma nedelec_injective : forall order f g, is_nedelec order f -> is_nedelec order g -> first_of f = first_of g ->
  exponent f 1 = exponent g 1 -> exponent f 2 = exponent g 2 -> exponent f 3 = exponent g 3 -> f = g.
Proof.
  intros order f g Hf Hg E0 E1 E2 E3.
  assert (forall h, is_nedelec order h ->
    (exists l m i j, h = EdgeNedelec l m i j /\ (l + m + 1 = order)%nat /\ ((i = 0 /\ j = 1) \/ (i = 0 /\ j = 2) \/ (i = 0 /\ j = 3) \/ (i = 1 /\ j = 2) \/ (i = 1 /\ j = 3) \/ (i = 2 /\ j = 3))%nat) \/
    (exists l m n d, (h = Face1Nedelec l m n d \/ h = Face2Nedelec l m n d) /\ (l + m + n + 2 = order)%nat /\ (d = 0 \/ d = 1 \/ d = 2 \/ d = 3)%nat) \/
    (exists l m n o, (h = Interior1Nedelec l m n o \/ h = Interior2Nedelec l m n o \/ h = Interior3Nedelec l m n o) /\ (l + m + n + o + 3 = order)%nat)) as C.
  { intros h H. destruct (in_nedelec order h H) as [Hp Ho]. destruct h; try contradiction; cbn [proper3 proper_function] in *.
    - left. do 4 eexists. split; [reflexivity|]. lia.
    - right; left. do 4 eexists. split; [left; reflexivity|]. lia.
    - right; left. do 4 eexists. split; [right; reflexivity|]. lia.
    - right; right. do 4 eexists. split; [left; reflexivity|]. lia.
    - right; right. do 4 eexists. split; [right; left; reflexivity|]. lia.
    - right; right. do 4 eexists. split; [right; right; reflexivity|]. lia. }
  destruct (C f Hf) as [(l & m & i & j & -> & So & HC)|[(l & m & n & d & HC & So & Hd)|(l & m & n & o & HC & So)]];
  destruct (C g Hg) as [(l' & m' & i' & j' & -> & So' & HC')|[(l' & m' & n' & d' & HC' & So' & Hd')|(l' & m' & n' & o' & HC' & So')]]; clear C Hf Hg;
  repeat match goal with
  | H : _ /\ _ |- _ => destruct H
  | H : _ \/ _ |- _ => destruct H
  end; subst; cbn in E0; try discriminate E0;
  cbn in E1, E2, E3; unfold place in E1, E2, E3; cbn [Nat.eqb] in E1, E2, E3; try (exfalso; lia); f_equal; lia.
Qed.

Definition monomial (e : nat * (nat * nat)) (p : R * (R * R)) : R := product (fun n x => x ^ n) (product (fun n x => x ^ n) (fun n x => x ^ n)) e p.
Lemma poly_pow : forall n, poly n (fun x => x ^ n) 1.
Proof. induction n as [|n IH]; [apply (poly_ext 0 (fun _ => 1) _ 1 1 (poly_const 1)); reflexivity|]. apply (poly_ext (S n) _ _ 1 1 (poly_x n _ _ IH)); reflexivity. Qed.
Lemma powers_free : forall u v, u < v -> free (fun n x => x ^ n) (fun x => u < x < v) (fun _ => True).
Proof. intros u v H. apply (free_graded _ _ u v H). intros k _. exists 1. split; [apply poly_pow|lra]. Qed.
Definition box (p : R * (R * R)) : Prop := 1 < fst p < 2 /\ 1 < fst (snd p) < 2 /\ 1 < snd (snd p) < 2.
Lemma monomials3_free : free monomial box (fun _ => True).
Proof.
  assert (free (product (fun n x => x ^ n) (fun n x => x ^ n)) (fun p => 1 < fst p < 2 /\ 1 < snd p < 2) (fun _ => True)) as F2.
  { eapply free_less; [exact (free_product Nat.eq_dec _ _ _ _ _ _ (powers_free 1 2 ltac:(lra)) (powers_free 1 2 ltac:(lra)))| |]; cbn; auto. }
  eapply free_less; [exact (free_product Nat.eq_dec _ _ _ _ _ _ (powers_free 1 2 ltac:(lra)) F2)| |]; cbn; auto.
Qed.
Definition scale (p : R * (R * R)) : R := / (1 + fst p + fst (snd p) + snd (snd p)).
Definition to_simplex (p : R * (R * R)) : vec := (fst p * scale p, fst (snd p) * scale p, snd (snd p) * scale p).
Lemma scale_positive : forall p, box p -> 0 < scale p.
Proof. intros [x [y z]] (Hx & Hy & Hz). unfold scale. cbn [fst snd] in *. apply Rinv_0_lt_compat. lra. Qed.
Lemma scale_sum : forall p, box p -> scale p + fst p * scale p + fst (snd p) * scale p + snd (snd p) * scale p = 1.
Proof. intros [x [y z]] (Hx & Hy & Hz). unfold scale. cbn [fst snd] in *. field. lra. Qed.
Lemma to_simplex_inside : forall p, box p -> inside (to_simplex p).
Proof.
  intros p H. pose proof (scale_positive p H). pose proof (scale_sum p H). destruct p as [x [y z]], H as (Hx & Hy & Hz). unfold inside, to_simplex. cbn [fst snd] in *.
  repeat split; try (apply Rmult_le_pos; lra). lra.
Qed.
Lemma to_simplex_lam : forall p n, box p -> lam n (fst p * scale p) (fst (snd p) * scale p) (snd (snd p) * scale p) =
  match n with O => scale p | S O => fst p * scale p | S (S O) => fst (snd p) * scale p | _ => snd (snd p) * scale p end.
Proof. intros p n H. pose proof (scale_sum p H). destruct n as [|[|[|n]]]; cbn; try reflexivity. lra. Qed.
Lemma nedelec_free : forall order, free seen (fun pt => inside (fst pt)) (is_nedelec order).
Proof.
  intros order.
  apply (free_parts Nat.eq_dec) with (part := first_of) (rank := fun n => n)
    (DJ := fun k pt => inside (fst pt) /\ snd pt = vsub (corner k) (fst pt)).
  - intros i x _ [H _]. exact H.
  - intros f g [p t] Hf Hg [Hi Ht] Hne Hle. cbn [fst snd] in *. subst t. destruct p as [[x y] z].
    refine (eq_trans (nedelec_seen order f (first_of g) x y z Hf (nedelec_first _ _ Hg) Hle) _).
    destruct (Nat.eqb_spec (first_of g) (first_of f)); [congruence|reflexivity].
  - intros g Hg. pose proof (nedelec_first _ _ Hg) as Hk. set (k := first_of g) in *. clearbody k. clear g Hg.
    apply free_map with (chi := monomial) (E := box) (Q := fun _ => True) (kappa := fun f => (exponent f 1, (exponent f 2, exponent f 3)))
      (a := fun _ => 1) (s := fun y => scale y ^ order) (g := fun y => (to_simplex y, vsub (corner k) (to_simplex y))).
    + exact monomials3_free.
    + auto.
    + intros f g [Hf Hfk] [Hg Hgk] E. injection E as E1 E2 E3. apply (nedelec_injective order); congruence.
    + intros y Hy. cbn [fst snd]. split; [apply to_simplex_inside; exact Hy|reflexivity].
    + intros y Hy. apply pow_nonzero. pose proof (scale_positive y Hy). lra.
    + intros. lra.
    + intros f y [Hf Hfk] Hy. unfold to_simplex. refine (eq_trans (nedelec_seen order f k _ _ _ Hf Hk _) _); [lia|].
      rewrite Hfk, Nat.eqb_refl. rewrite !(to_simplex_lam y) by exact Hy. rewrite <- (nedelec_total order f Hf).
      rewrite !pow_add, !Rpow_mult_distr. unfold monomial, product. cbn [fst snd]. ring.
Qed.
Lemma nedelec_independent : forall order, curl_independent Tetrahedron (createDGBasisFunctionSet3DNedelec order).
Proof.
  intros order. apply free_independent; [apply nedelec_nodup|intros f H; apply (in_nedelec order f H)|exact (nedelec_free order)].
Qed.
