(** Linear independence of the sets of basis functions. *)
From Coq Require Import List Arith Lia ZArith Reals Lra Bool.
From Verif Require Import Legendre_model RefGeometry_model RefGeometry_spec RefGeometry_proofs BasisFunctions_model BasisSets_model
  FreeFamilies_proofs Independence_spec.
Import ListNotations.
Local Open Scope R_scope.

(** ** From families to lists of basis functions *)
Lemma independent_from : forall s l {K X} (chi : K -> X -> R) (D : X -> Prop) (Q : K -> Prop) (kappa : basis_function -> K)
    (a : basis_function -> R) (g : X -> point),
  free chi D Q -> NoDup (map kappa l) -> (forall f, In f l -> Q (kappa f)) -> (forall f, In f l -> a f <> 0) ->
  (forall x, D x -> internal s (g x)) -> (forall f x, In f l -> D x -> eval f (g x) = Some (a f * chi (kappa f) x)) ->
  independent s l.
Proof.
  intros s l K X chi D Q kappa a g F N HQ Ha HD He cs Lc Z.
  assert (M : map snd (map (fun cf => (fst cf * a (snd cf), kappa (snd cf))) (combine cs l)) = map kappa l).
  { rewrite map_map. cbn [snd]. clear - Lc. revert cs Lc. induction l as [|f l IH]; intros [|c cs] Lc; try discriminate; [reflexivity|].
    cbn in *. f_equal. apply IH. lia. }
  assert (G : forall c k, In (c, k) (map (fun cf => (fst cf * a (snd cf), kappa (snd cf))) (combine cs l)) -> c = 0).
  { apply F.
    - rewrite M. exact N.
    - rewrite M. intros k Hk. apply in_map_iff in Hk. destruct Hk as [f [<- Hf]]. apply HQ. exact Hf.
    - intros x Dx. rewrite <- (Z (g x) (map (fun f => a f * chi (kappa f) x) l)); [|apply HD; exact Dx|].
      + unfold combination. clear - Lc. revert cs Lc.
        induction l as [|f l IH]; intros [|c cs] Lc; try discriminate; [reflexivity|]. cbn in *. rewrite IH by lia.
        unfold sum. cbn. ring.
      + rewrite map_map. apply map_ext_in. intros f Hf. apply He; assumption. }
  apply Forall_forall. intros c Hc.
  assert (exists f, In (c, f) (combine cs l)) as [f Hf].
  { clear - Lc Hc. revert cs Lc Hc. induction l as [|f l IH]; intros [|c' cs] Lc Hc; try discriminate; [destruct Hc|].
    cbn in Lc. destruct Hc as [->|Hc]; [exists f; left; reflexivity|]. destruct (IH cs) as [f' H']; [lia|exact Hc|]. exists f'. right. exact H'. }
  assert (c * a f = 0) as E.
  { apply (G _ (kappa f)). apply in_map_iff. exists (c, f). auto. }
  apply Rmult_integral in E. destruct E as [E|E]; [exact E|]. exfalso. apply (Ha f); [|exact E]. eapply in_combine_r. exact Hf.
Qed.

(** ** The one-dimensional functions *)
Fixpoint horner (l : list R) (x : R) : R := match l with [] => 0 | b :: l' => b + x * horner l' x end.
Lemma poly_horner : forall l a, poly (length l) (horner (l ++ [a])) a.
Proof.
  induction l as [|b l IH]; intros a; cbn [length app].
  - intros x. cbn. ring.
  - exists (horner (l ++ [a])), b. split; [apply IH|]. reflexivity.
Qed.

Lemma poly_list : forall l a f, (forall x, f x = horner (l ++ [a]) x) -> poly (length l) f a.
Proof. intros l a f H. eapply poly_ext; [apply poly_horner|exact H|reflexivity]. Qed.

Lemma lobatto_degree : forall o, (o <= 4)%nat -> exists a, poly o (LobattoPolynomial o) a /\ a <> 0.
Proof.
  intros o L. assert (forall r, 0 < r -> 0 < sqrt r) as S by (intros; apply sqrt_lt_R0; assumption).
  assert (0 < sqrt (3/2)) by (apply S; lra). assert (0 < sqrt (5/2)) by (apply S; lra). assert (0 < sqrt (7/2)) by (apply S; lra).
  assert (0 < sqrt (9/2)) by (apply S; lra). assert (0 < sqrt (11/2)) by (apply S; lra).
  destruct o as [|[|[|[|[|o]]]]]; [| | | | |lia].
  - exists (-2 * sqrt (3/2)). split; [|lra]. apply (poly_list []); intros; cbn; field.
  - exists (-2 * sqrt (5/2)). split; [|lra]. apply (poly_list [0]); intros; cbn; field.
  - exists (-(5/2) * sqrt (7/2)). split; [|lra].
    apply (poly_list [sqrt (7/2) / 2; 0]); intros; cbn; field.
  - exists (-(7/2) * sqrt (9/2)). split; [|lra].
    apply (poly_list [0; sqrt (9/2) * (3/2); 0]); intros; cbn; field.
  - exists (-(21/4) * sqrt (11/2)). split; [|lra].
    apply (poly_list [-(1/4) * sqrt (11/2); 0; sqrt (11/2) * (7/2); 0]); intros; cbn; field.
Qed.
Lemma lobatto_free : forall u v, u < v -> free LobattoPolynomial (fun x => u < x < v) (fun o => o <= 4)%nat.
Proof. intros u v L. apply free_graded; [exact L|]. apply lobatto_degree. Qed.
Lemma lobatto_mirror : forall o x, (o <= 4)%nat -> LobattoPolynomial o (- x) = (-1) ^ o * LobattoPolynomial o x.
Proof. intros o x L. destruct o as [|[|[|[|[|o]]]]]; [| | | | |lia]; cbn; field. Qed.

Definition phi (k : nat) (x : R) : R :=
  match k with 0%nat => (1 - x) / 2 | 1%nat => (1 + x) / 2 | S (S o) => (1 - x) * (1 + x) / 4 * LobattoPolynomial o x end.
Lemma phi_interior_free : free phi (fun x => -1 < x < 1) (fun k => 2 <= k <= 6)%nat.
Proof.
  apply free_map with (chi := LobattoPolynomial) (E := fun x => -1 < x < 1) (Q := fun o => (o <= 4)%nat)
    (kappa := fun i => (i - 2)%nat) (a := fun _ => 1) (s := fun x => (1 - x) * (1 + x) / 4) (g := fun x => x).
  - apply lobatto_free. lra.
  - intros i Pi. lia.
  - intros i j Pi Pj E. lia.
  - intros y Hy. exact Hy.
  - intros y Hy. assert (0 < (1 - y) * (1 + y)) by (apply Rmult_lt_0_compat; lra). lra.
  - intros; lra.
  - intros i y Pi Hy. destruct i as [|[|i]]; [lia|lia|]. cbn [phi]. replace (S (S i) - 2)%nat with i by lia. ring.
Qed.
Lemma phi_free : free phi (fun x => -1 <= x <= 1) (fun k => k <= 6)%nat.
Proof.
  apply (free_parts Nat.eq_dec) with (part := fun k => match k with 0 => 0 | 1 => 1 | _ => 2 end%nat) (rank := fun j => (j / 2)%nat)
    (DJ := fun j x => match j with 0%nat => x = -1 | 1%nat => x = 1 | _ => -1 < x < 1 end).
  - intros i x _. destruct i as [|[|i]]; cbn; intros; lra.
  - intros i k x _ _. destruct i as [|[|i]], k as [|[|k]]; cbn; intros Dx N L; subst; try contradiction; try lia; cbn [phi]; field.
  - intros k Pk. destruct k as [|[|k]].
    + intros l N Pl Z c i H.
      assert (forall c i, In (c, i) l -> i = 0%nat) as All.
      { intros c' i' H'. destruct (Pl i') as [_ E]; [apply in_map_iff; exists (c', i'); auto|]. destruct i' as [|[|i']]; cbn in E; [reflexivity|discriminate|discriminate]. }
      assert (All' := All _ _ H). subst i.
      destruct l as [|[c1 i1] [|[c2 i2] l]]; [destruct H| |].
      * destruct H as [H|[]]. injection H as -> ->. specialize (Z (-1) eq_refl). cbn in Z. lra.
      * exfalso. cbn in N. apply NoDup_cons_iff in N. apply (proj1 N). left.
        rewrite (All c1 i1), (All c2 i2); [reflexivity|right; left; reflexivity|left; reflexivity].
    + intros l N Pl Z c i H.
      assert (forall c i, In (c, i) l -> i = 1%nat) as All.
      { intros c' i' H'. destruct (Pl i') as [_ E]; [apply in_map_iff; exists (c', i'); auto|]. destruct i' as [|[|i']]; cbn in E; [discriminate|reflexivity|discriminate]. }
      assert (All' := All _ _ H). subst i.
      destruct l as [|[c1 i1] [|[c2 i2] l]]; [destruct H| |].
      * destruct H as [H|[]]. injection H as -> ->. specialize (Z 1 eq_refl). cbn in Z. lra.
      * exfalso. cbn in N. apply NoDup_cons_iff in N. apply (proj1 N). left.
        rewrite (All c1 i1), (All c2 i2); [reflexivity|right; left; reflexivity|left; reflexivity].
    + eapply free_less; [exact phi_interior_free|auto|]. intros i [Pi E]. destruct i as [|[|i]]; try discriminate. split; [lia|exact Pi].
Qed.

(** ** Functions on simplices, in barycentric coordinates: a list of nodes and a degree for each pair of consecutive nodes *)
Fixpoint along (c : nat -> R) (J os : list nat) : R :=
  match J, os with
  | n :: ((m :: _) as J'), o :: os' => LobattoPolynomial o (c n - c m) * along c J' os'
  | _, _ => 1
  end.
Definition bubble (c : nat -> R) (J : list nat) : R := fold_right (fun n r => c n * r) 1 J.
Definition simplex_function (i : list nat * list nat) (c : nat -> R) : R := bubble c (fst i) * along c (fst i) (snd i).
(** the nodes 0, ..., d span a simplex *)
Fixpoint coordinate_sum (d : nat) (c : nat -> R) : R := match d with O => c O | S d' => coordinate_sum d' c + c d end.
Definition in_simplex (d : nat) (c : nat -> R) : Prop := (forall n, 0 <= c n) /\ (forall n, (d < n)%nat -> c n = 0) /\ coordinate_sum d c = 1.
Definition inside_part (J : list nat) (c : nat -> R) : Prop :=
  (forall n, In n J -> 0 < c n) /\ (forall n, ~ In n J -> c n = 0) /\ fold_right (fun n r => c n + r) 0 J = 1.

Lemma bubble_zero : forall c J n, In n J -> c n = 0 -> bubble c J = 0.
Proof. induction J as [|m J IH]; intros n H E; [destruct H|]. cbn. destruct H as [->|H]; [rewrite E; ring|]. unfold bubble in IH. rewrite (IH n H E). ring. Qed.
Lemma bubble_positive : forall c J, (forall n, In n J -> 0 < c n) -> 0 < bubble c J.
Proof.
  induction J as [|m J IH]; intros H; cbn; [lra|]. apply Rmult_lt_0_compat; [apply H; left; reflexivity|]. apply IH.
  intros; apply H; right; assumption.
Qed.

(** sum of one function at most *)
Lemma free_single : forall {I X} (psi : I -> X -> R) (D : X -> Prop) (P : I -> Prop) i0 x0, (forall i, P i -> i = i0) -> D x0 ->
  psi i0 x0 <> 0 -> free psi D P.
Proof.
  intros I X psi D P i0 x0 H Hx H0 l N Pl Z c i Hi.
  destruct l as [|[c1 i1] [|[c2 i2] l]]; [destruct Hi| |].
  - destruct Hi as [E|[]]. injection E as -> ->. specialize (Z x0 Hx). cbn in Z.
    rewrite (H i) in Z by (apply Pl; left; reflexivity). rewrite Rplus_0_r in Z. apply Rmult_integral in Z. tauto.
  - exfalso. cbn in N. apply NoDup_cons_iff in N. apply (proj1 N). left.
    rewrite (H i1), (H i2); [reflexivity|apply Pl; cbn; tauto|apply Pl; cbn; tauto].
Qed.

Definition cond (J os : list nat) : Prop := S (length os) = length J /\ Forall (fun o => o <= 4)%nat os.
Definition coords (l : list (nat * R)) (n : nat) : R := fold_right (fun a r => if Nat.eqb n (fst a) then snd a else r) 0 l.

Ltac nodes_differ := repeat match goal with H : NoDup (_ :: _) |- _ => apply NoDup_cons_iff in H; destruct H end; cbn [In] in *.
Ltac decide_eqb := cbn [fold_right fst snd coords]; repeat match goal with |- context [Nat.eqb ?a ?b] =>
  destruct (Nat.eqb_spec a b); [subst; try (exfalso; tauto)|] end.
Ltac eqbs_in := unfold coords; cbn [fold_right fst snd]; repeat (rewrite Nat.eqb_refl);
  repeat match goal with |- context [Nat.eqb ?a ?b] => destruct (Nat.eqb_spec a b) as [?E|?E]; [exfalso; subst; intuition congruence|] end.

Lemma part_free_1 : forall a, free simplex_function (inside_part [a]) (fun i => cond [a] (snd i) /\ fst i = [a]).
Proof.
  intros a. apply free_single with (i0 := ([a], [])) (x0 := coords [(a, 1)]).
  - intros [J os] [[L _] E]. cbn in *. subst J. destruct os; [reflexivity|discriminate].
  - split; [|split].
    + intros n [<-|[]]. eqbs_in. lra.
    + intros n H. cbn in H. eqbs_in. reflexivity.
    + cbn [fold_right]. eqbs_in. ring.
  - unfold simplex_function, bubble. cbn [fst snd along fold_right]. eqbs_in. lra.
Qed.

Lemma part_free_2 : forall a b, NoDup [a; b] -> free simplex_function (inside_part [a; b]) (fun i => cond [a; b] (snd i) /\ fst i = [a; b]).
Proof.
  intros a b N. nodes_differ.
  pose (g := fun u => coords [(a, (1 + u) / 2); (b, (1 - u) / 2)]).
  assert (ga : forall u, g u a = (1 + u) / 2) by (intros; unfold g; eqbs_in; reflexivity).
  assert (gb : forall u, g u b = (1 - u) / 2) by (intros; unfold g; eqbs_in; reflexivity).
  apply free_map with (chi := LobattoPolynomial) (E := fun u => -1 < u < 1) (Q := fun o => (o <= 4)%nat)
    (kappa := fun i => hd 0%nat (snd i)) (a := fun _ => 1) (s := fun u => bubble (g u) [a; b]) (g := g).
  - apply lobatto_free; lra.
  - intros [J os] [[L F] E]. cbn in *. destruct os as [|o [|]]; try discriminate. inversion F. assumption.
  - intros [J os] [J' os'] [[L F] E] [[L' F'] E'] Eq. cbn in *. subst. destruct os as [|o [|]], os' as [|o' [|]]; try discriminate. cbn in Eq. congruence.
  - intros u Hu. split; [|split].
    + intros n [<-|[<-|[]]]; [rewrite ga|rewrite gb]; lra.
    + intros n H'. cbn in H'. unfold g. eqbs_in. reflexivity.
    + cbn [fold_right]. rewrite ga, gb. field.
  - intros u Hu. apply Rgt_not_eq, bubble_positive. intros n [<-|[<-|[]]]; [rewrite ga|rewrite gb]; lra.
  - intros; lra.
  - intros [J os] u [[L F] E] Hu. cbn [fst snd] in *. subst J. destruct os as [|o [|]]; try discriminate.
    unfold simplex_function. cbn [fst snd along hd]. rewrite ga, gb. replace ((1 + u) / 2 - (1 - u) / 2) with u by field. ring.
Qed.

Lemma part_free_3 : forall a b c, NoDup [a; b; c] ->
  free simplex_function (inside_part [a; b; c]) (fun i => cond [a; b; c] (snd i) /\ fst i = [a; b; c]).
Proof.
  intros a b c N. nodes_differ.
  pose (g := fun u : R * R => coords [(a, (1 + 2 * fst u + snd u) / 3); (b, (1 - fst u + snd u) / 3); (c, (1 - fst u - 2 * snd u) / 3)]).
  assert (ga : forall u, g u a = (1 + 2 * fst u + snd u) / 3) by (intros; unfold g; eqbs_in; reflexivity).
  assert (gb : forall u, g u b = (1 - fst u + snd u) / 3) by (intros; unfold g; eqbs_in; reflexivity).
  assert (gc : forall u, g u c = (1 - fst u - 2 * snd u) / 3) by (intros; unfold g; eqbs_in; reflexivity).
  apply free_map with (chi := product LobattoPolynomial LobattoPolynomial)
    (E := fun u => -(1/9) < fst u < 1/9 /\ -(1/9) < snd u < 1/9) (Q := fun o => (fst o <= 4)%nat /\ (snd o <= 4)%nat)
    (kappa := fun i => (hd 0%nat (snd i), hd 0%nat (tl (snd i)))) (a := fun _ => 1) (s := fun u => bubble (g u) [a; b; c]) (g := g).
  - apply (free_product Nat.eq_dec LobattoPolynomial LobattoPolynomial (fun x => -(1/9) < x < 1/9) (fun x => -(1/9) < x < 1/9)
      (fun o => o <= 4)%nat (fun o => o <= 4)%nat); apply lobatto_free; lra.
  - intros [J os] [[L F] E]. cbn [fst snd length] in *. destruct os as [|o [|o' [|]]]; try discriminate. inversion F as [|? ? ? F']. inversion F'. cbn. auto.
  - intros [J os] [J' os'] [[L F] E] [[L' F'] E'] Eq. cbn [fst snd length] in *. subst.
    destruct os as [|o [|o1 [|]]], os' as [|o' [|o1' [|]]]; try discriminate. cbn in Eq. congruence.
  - intros u Hu. split; [|split].
    + intros n [<-|[<-|[<-|[]]]]; [rewrite ga|rewrite gb|rewrite gc]; lra.
    + intros n H'. cbn in H'. unfold g. eqbs_in. reflexivity.
    + cbn [fold_right]. rewrite ga, gb, gc. field.
  - intros u Hu. apply Rgt_not_eq, bubble_positive. intros n [<-|[<-|[<-|[]]]]; [rewrite ga|rewrite gb|rewrite gc]; lra.
  - intros; lra.
  - intros [J os] u [[L F] E] Hu. cbn [fst snd] in *. subst J. destruct os as [|o [|o' [|]]]; try discriminate.
    unfold simplex_function, product. cbn [fst snd along hd tl]. rewrite ga, gb, gc.
    replace ((1 + 2 * fst u + snd u) / 3 - (1 - fst u + snd u) / 3) with (fst u) by field.
    replace ((1 - fst u + snd u) / 3 - (1 - fst u - 2 * snd u) / 3) with (snd u) by field. ring.
Qed.

Lemma part_free_4 : forall a b c d, NoDup [a; b; c; d] ->
  free simplex_function (inside_part [a; b; c; d]) (fun i => cond [a; b; c; d] (snd i) /\ fst i = [a; b; c; d]).
Proof.
  intros a b c d N. nodes_differ.
  pose (va := fun u : R * (R * R) => (1 + 3 * fst u + 2 * fst (snd u) + snd (snd u)) / 4).
  pose (vb := fun u => va u - fst u). pose (vc := fun u => vb u - fst (snd u)). pose (vd := fun u => vc u - snd (snd u)).
  pose (g := fun u => coords [(a, va u); (b, vb u); (c, vc u); (d, vd u)]).
  assert (ga : forall u, g u a = va u) by (intros; unfold g; eqbs_in; reflexivity).
  assert (gb : forall u, g u b = vb u) by (intros; unfold g; eqbs_in; reflexivity).
  assert (gc : forall u, g u c = vc u) by (intros; unfold g; eqbs_in; reflexivity).
  assert (gd : forall u, g u d = vd u) by (intros; unfold g; eqbs_in; reflexivity).
  pose (E := fun u : R * (R * R) => -(1/20) < fst u < 1/20 /\ -(1/20) < fst (snd u) < 1/20 /\ -(1/20) < snd (snd u) < 1/20).
  assert (pos : forall u, E u -> 0 < va u /\ 0 < vb u /\ 0 < vc u /\ 0 < vd u) by (intros u Hu; unfold E in Hu; unfold vd, vc, vb, va; lra).
  apply free_map with (chi := product LobattoPolynomial (product LobattoPolynomial LobattoPolynomial))
    (E := E) (Q := fun o => (fst o <= 4)%nat /\ (fst (snd o) <= 4)%nat /\ (snd (snd o) <= 4)%nat)
    (kappa := fun i => (hd 0%nat (snd i), (hd 0%nat (tl (snd i)), hd 0%nat (tl (tl (snd i)))))) (a := fun _ => 1)
    (s := fun u => bubble (g u) [a; b; c; d]) (g := g).
  - apply (free_product Nat.eq_dec _ _ (fun x => -(1/20) < x < 1/20) (fun x => -(1/20) < fst x < 1/20 /\ -(1/20) < snd x < 1/20)
      (fun o => o <= 4)%nat (fun o => (fst o <= 4)%nat /\ (snd o <= 4)%nat)); [apply lobatto_free; lra|].
    apply (free_product Nat.eq_dec LobattoPolynomial LobattoPolynomial (fun x => -(1/20) < x < 1/20) (fun x => -(1/20) < x < 1/20)
      (fun o => o <= 4)%nat (fun o => o <= 4)%nat); apply lobatto_free; lra.
  - intros [J os] [[L F] E0]. cbn [fst snd length] in *. destruct os as [|o [|o' [|o'' [|]]]]; try discriminate.
    inversion F as [|? ? ? F']. inversion F' as [|? ? ? F'']. inversion F''. cbn. auto.
  - intros [J os] [J' os'] [[L F] E0] [[L' F'] E'] Eq. cbn [fst snd length] in *. subst.
    destruct os as [|o [|o1 [|o2 [|]]]], os' as [|o' [|o1' [|o2' [|]]]]; try discriminate. cbn in Eq. congruence.
  - intros u Hu. destruct (pos u Hu) as [? [? [? ?]]]. split; [|split].
    + intros n [<-|[<-|[<-|[<-|[]]]]]; [rewrite ga|rewrite gb|rewrite gc|rewrite gd]; assumption.
    + intros n H'. cbn in H'. unfold g. eqbs_in. reflexivity.
    + cbn [fold_right]. rewrite ga, gb, gc, gd. unfold vd, vc, vb, va. field.
  - intros u Hu. destruct (pos u Hu) as [? [? [? ?]]]. apply Rgt_not_eq, bubble_positive.
    intros n [<-|[<-|[<-|[<-|[]]]]]; [rewrite ga|rewrite gb|rewrite gc|rewrite gd]; assumption.
  - intros; lra.
  - intros [J os] u [[L F] E0] Hu. cbn [fst snd] in *. subst J. destruct os as [|o [|o' [|o'' [|]]]]; try discriminate.
    unfold simplex_function, product. cbn [fst snd along hd tl]. rewrite ga, gb, gc, gd.
    replace (va u - vb u) with (fst u) by (unfold vb; ring). replace (vb u - vc u) with (fst (snd u)) by (unfold vc; ring).
    replace (vc u - vd u) with (snd (snd u)) by (unfold vd; ring). ring.
Qed.

Lemma part_free : forall J, NoDup J -> (1 <= length J <= 4)%nat -> free simplex_function (inside_part J) (fun i => cond J (snd i) /\ fst i = J).
Proof.
  intros [|a [|b [|c [|d [|]]]]] N L; cbn in L; try lia;
    [apply part_free_1|apply part_free_2|apply part_free_3|apply part_free_4]; assumption.
Qed.

Lemma inside_simplex : forall d J c, (d <= 3)%nat -> NoDup J -> (forall n, In n J -> (n <= d)%nat) -> inside_part J c -> in_simplex d c.
Proof.
  intros d J c Hd N HJ [H1 [H2 H3]].
  assert (pos : forall n, 0 <= c n).
  { intros n. destruct (in_dec Nat.eq_dec n J) as [H|H]; [left; apply H1; exact H|rewrite (H2 n H); lra]. }
  split; [exact pos|]. split; [intros n Hn; apply H2; intros H; apply HJ in H; lia|].
  assert (G : forall J, NoDup J -> (forall n, ~ In n J -> c n = 0) -> (forall n, In n J -> (n <= d)%nat) ->
    fold_right (fun n r => c n + r) 0 J = coordinate_sum d c); [|rewrite <- (G J N H2 HJ); exact H3].
  clear. revert c. induction d as [|d IH]; intros c J N Z HJ.
  - destruct J as [|a [|b J]].
    + cbn. symmetry. apply Z. intros [].
    + assert (a = 0)%nat as -> by (specialize (HJ a (or_introl eq_refl)); lia). cbn. ring.
    + exfalso. assert (a = 0)%nat as -> by (specialize (HJ a (or_introl eq_refl)); lia).
      assert (b = 0)%nat as -> by (specialize (HJ b (or_intror (or_introl eq_refl))); lia).
      apply NoDup_cons_iff in N. apply (proj1 N). left. reflexivity.
  - cbn [coordinate_sum].
    assert (R : forall J, NoDup J -> fold_right (fun n r => c n + r) 0 J =
      fold_right (fun n r => c n + r) 0 (remove Nat.eq_dec (S d) J) + if in_dec Nat.eq_dec (S d) J then c (S d) else 0).
    { clear. induction J as [|a J IH]; intros N; cbn [remove fold_right]; [cbn; ring|]. apply NoDup_cons_iff in N. destruct N as [N1 N2].
      rewrite IH by exact N2. destruct (Nat.eq_dec (S d) a) as [<-|Ne].
      - destruct (in_dec Nat.eq_dec (S d) J) as [H|H]; [contradiction|].
        destruct (in_dec Nat.eq_dec (S d) (S d :: J)) as [_|H']; [ring|exfalso; apply H'; left; reflexivity].
      - cbn [fold_right]. destruct (in_dec Nat.eq_dec (S d) J) as [H|H], (in_dec Nat.eq_dec (S d) (a :: J)) as [H'|H']; try ring.
        + exfalso. apply H'. right. exact H.
        + exfalso. destruct H' as [H'|H']; [congruence|contradiction]. }
    rewrite (R J N). f_equal.
    + set (c' := fun n => if Nat.eqb n (S d) then 0 else c n).
      transitivity (fold_right (fun n r => c' n + r) 0 (remove Nat.eq_dec (S d) J)).
      { assert (Q : forall n, In n (remove Nat.eq_dec (S d) J) -> c n = c' n).
        { intros n Hn. apply in_remove in Hn. unfold c'. destruct (Nat.eqb_spec n (S d)); [tauto|reflexivity]. }
        induction (remove Nat.eq_dec (S d) J) as [|n K IHK]; [reflexivity|]. cbn. rewrite (Q n), IHK; [reflexivity| |left; reflexivity].
        intros; apply Q; right; assumption. }
      rewrite (IH c' (remove Nat.eq_dec (S d) J)).
      * assert (Q : forall n, (n <= d)%nat -> c' n = c n).
        { intros n Hn. unfold c'. destruct (Nat.eqb_spec n (S d)); [lia|reflexivity]. }
        assert (G : forall e, (forall n, (n <= e)%nat -> c' n = c n) -> coordinate_sum e c' = coordinate_sum e c).
        { clear. clearbody c'. induction e; intros Q; cbn [coordinate_sum]; [apply Q; lia|]. rewrite IHe by (intros; apply Q; lia). rewrite Q by lia. reflexivity. }
        apply G. exact Q.
      * clear - N. induction J as [|a J IHJ]; [constructor|]. apply NoDup_cons_iff in N. cbn [remove].
        destruct (Nat.eq_dec (S d) a); [apply IHJ; apply N|]. constructor; [|apply IHJ; apply N]. intros H. apply in_remove in H. tauto.
      * intros n Hn. unfold c'. destruct (Nat.eqb_spec n (S d)) as [|Ne]; [reflexivity|]. apply Z. intros H. apply Hn. apply in_in_remove; assumption.
      * intros n Hn. apply in_remove in Hn. destruct Hn as [Hn Ne]. apply HJ in Hn. lia.
    + destruct (in_dec Nat.eq_dec (S d) J) as [H|H]; [reflexivity|]. symmetry. apply Z. exact H.
Qed.

Lemma simplex_free : forall d (parts : list (list nat)), (d <= 3)%nat ->
  (forall J, In J parts -> NoDup J /\ (1 <= length J <= 4)%nat /\ forall n, In n J -> (n <= d)%nat) ->
  (forall J K, In J parts -> In K parts -> J <> K -> (length K <= length J)%nat -> exists n, In n J /\ ~ In n K) ->
  free simplex_function (in_simplex d) (fun i => In (fst i) parts /\ cond (fst i) (snd i)).
Proof.
  intros d parts Hd H1 H2.
  apply (free_parts (list_eq_dec Nat.eq_dec)) with (part := fst) (rank := @length nat) (DJ := inside_part).
  - intros [J os] c [Pi _]. cbn [fst] in *. destruct (H1 J Pi) as [A [B C]]. apply inside_simplex; assumption.
  - intros [J os] [K os'] c [Pi _] [Pk _] [_ [Z _]] Ne L. cbn [fst] in *. destruct (H2 J K Pi Pk Ne L) as [n [A B]].
    unfold simplex_function. cbn [fst snd]. rewrite (bubble_zero c J n A); [ring|]. apply Z. exact B.
  - intros [J os] [Pi _]. cbn [fst] in *. destruct (H1 J Pi) as [A [B _]].
    eapply free_less; [apply (part_free J A B)|auto|]. intros [K os'] [[_ C] E]. cbn in *. subst K. auto.
Qed.
