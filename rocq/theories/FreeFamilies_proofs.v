(** Families of functions without linear relations. *)
From Coq Require Import List Arith Lia Reals Lra Permutation Bool.
Import ListNotations.
Local Open Scope R_scope.

Section Sums.
Context {I X : Type}.
Variable psi : I -> X -> R.

Fixpoint total (l : list (R * I)) (x : X) : R :=
  match l with [] => 0 | (c, i) :: l' => c * psi i x + total l' x end.

Definition free (D : X -> Prop) (P : I -> Prop) : Prop :=
  forall l, NoDup (map snd l) -> (forall i, In i (map snd l) -> P i) -> (forall x, D x -> total l x = 0) ->
    forall c i, In (c, i) l -> c = 0.

Lemma total_app : forall l1 l2 x, total (l1 ++ l2) x = total l1 x + total l2 x.
Proof. induction l1 as [|[c i] l1 IH]; intros; cbn; [ring|]. rewrite IH. ring. Qed.

Lemma total_filter : forall (b : I -> bool) l x, (forall c i, In (c, i) l -> b i = false -> c * psi i x = 0) ->
  total (filter (fun ci => b (snd ci)) l) x = total l x.
Proof.
  induction l as [|[c i] l IH]; intros x H; [reflexivity|]. cbn [filter snd].
  destruct (b i) eqn:E; cbn [total].
  - rewrite IH; [reflexivity|]. intros. eapply H; [right; eassumption|assumption].
  - rewrite IH; [|intros; eapply H; [right; eassumption|assumption]]. rewrite (H c i); [ring|left; reflexivity|exact E].
Qed.
End Sums.

Lemma NoDup_filter_snd : forall {I} (b : I -> bool) (l : list (R * I)), NoDup (map snd l) ->
  NoDup (map snd (filter (fun ci => b (snd ci)) l)).
Proof.
  induction l as [|[c i] l IH]; intros H; [constructor|]. cbn [map snd] in H. apply NoDup_cons_iff in H. destruct H as [H1 H2].
  cbn [filter snd]. destruct (b i); [|auto]. cbn [map snd]. constructor; [|auto].
  intros H. apply H1. apply in_map_iff in H. destruct H as [[c' i'] [E H]]. apply filter_In in H. destruct H as [H _].
  apply in_map_iff. exists (c', i'). auto.
Qed.

Lemma free_less : forall {I X} (psi : I -> X -> R) (D D' : X -> Prop) (P P' : I -> Prop), free psi D P ->
  (forall x, D x -> D' x) -> (forall i, P' i -> P i) -> free psi D' P'.
Proof. intros I X psi D D' P P' H H1 H2 l N Pl Z. apply (H l N); auto. Qed.

(** A family that is seen through another one. *)
Lemma free_map : forall {I K X Y} (psi : I -> X -> R) (chi : K -> Y -> R) (D : X -> Prop) (E : Y -> Prop) (P : I -> Prop)
    (Q : K -> Prop) (kappa : I -> K) (a : I -> R) (s : Y -> R) (g : Y -> X),
  free chi E Q -> (forall i, P i -> Q (kappa i)) -> (forall i j, P i -> P j -> kappa i = kappa j -> i = j) ->
  (forall y, E y -> D (g y)) -> (forall y, E y -> s y <> 0) -> (forall i, P i -> a i <> 0) ->
  (forall i y, P i -> E y -> psi i (g y) = s y * (a i * chi (kappa i) y)) -> free psi D P.
Proof.
  intros I K X Y psi chi D E P Q kappa a s g F HQ inj HD Hs Ha Hpsi l N Pl Z c i H.
  assert (Pi : forall c i, In (c, i) l -> P i).
  { intros c' i' H'. apply Pl. apply in_map_iff. exists (c', i'). auto. }
  assert (c * a i = 0) as E0.
  { apply (F (map (fun ci => (fst ci * a (snd ci), kappa (snd ci))) l)) with (i := kappa i).
    - rewrite map_map. cbn [snd]. rewrite <- (map_map snd kappa). clear Z H Pi.
      induction (map snd l) as [|j m IH]; [constructor|]. apply NoDup_cons_iff in N. destruct N as [N1 N2].
      cbn [map]. constructor.
      + intros H. apply in_map_iff in H. destruct H as [k [E1 H]]. apply N1.
        rewrite (inj j k); [exact H|apply Pl; left; reflexivity|apply Pl; right; exact H|symmetry; exact E1].
      + apply IH; [exact N2|]. intros; apply Pl; right; assumption.
    - intros k Hk. rewrite map_map in Hk. cbn [snd] in Hk. apply in_map_iff in Hk. destruct Hk as [[c' i'] [<- Hk]]. apply HQ.
      apply (Pi c'). exact Hk.
    - intros y Ey. apply (Rmult_eq_reg_l (s y)); [|apply Hs; exact Ey]. rewrite Rmult_0_r. rewrite <- (Z (g y) (HD y Ey)).
      clear - Pi Hpsi Ey. induction l as [|[c' i'] l IH]; cbn; [ring|].
      rewrite Hpsi; [|apply (Pi c'); left; reflexivity|exact Ey]. rewrite <- IH; [ring|]. intros; eapply Pi; right; eassumption.
    - apply in_map_iff. exists (c, i). auto. }
  apply Rmult_integral in E0. destruct E0 as [E0|E0]; [exact E0|]. exfalso. exact (Ha i (Pi c i H) E0).
Qed.

(** Products. *)
Section Product.
Context {I J X Y : Type}.
Variable idec : forall a b : I, {a = b} + {a <> b}.
Variable psi : I -> X -> R.
Variable chi : J -> Y -> R.

Definition product (ij : I * J) (xy : X * Y) : R := psi (fst ij) (fst xy) * chi (snd ij) (snd xy).
Definition in_row (i : I) (ij : I * J) : bool := if idec i (fst ij) then true else false.
Definition row (l : list (R * (I * J))) (i : I) : list (R * J) :=
  map (fun c => (fst c, snd (snd c))) (filter (fun c => in_row i (snd c)) l).

Lemma row_cons : forall c i j l i', row ((c, (i, j)) :: l) i' = if idec i' i then (c, j) :: row l i' else row l i'.
Proof. intros. unfold row, in_row. cbn [filter snd fst]. destruct (idec i' i); reflexivity. Qed.

Lemma grouped : forall l js x y, NoDup js -> (forall c i j, In (c, (i, j)) l -> In i js) ->
  total product l (x, y) = total psi (map (fun i => (total chi (row l i) y, i)) js) x.
Proof.
  induction l as [|[c [i j]] l IH]; intros js x y N H.
  - cbn. clear N H. induction js as [|i js IH]; cbn; [reflexivity|]. rewrite <- IH. ring.
  - cbn [total]. rewrite (IH js x y N); [|intros; eapply H; right; eassumption].
    assert (Hi : In i js) by (eapply H; left; reflexivity). clear H IH. unfold product; cbn [fst snd].
    assert (G : forall js, ~ In i js -> total psi (map (fun i0 => (total chi (row ((c, (i, j)) :: l) i0) y, i0)) js) x =
      total psi (map (fun i0 => (total chi (row l i0) y, i0)) js) x).
    { clear. induction js as [|k js IH]; intros H; [reflexivity|]. cbn [map total]. rewrite IH; [|intros G; apply H; right; exact G].
      rewrite row_cons. destruct (idec k i) as [->|]; [|reflexivity]. exfalso; apply H; left; reflexivity. }
    induction js as [|k js IH]; [destruct Hi|]. apply NoDup_cons_iff in N. destruct N as [N1 N2]. cbn [map total].
    destruct (idec k i) as [->|n].
    + rewrite G by exact N1. rewrite row_cons. destruct (idec i i) as [_|n]; [|contradiction]. cbn [total]. ring.
    + destruct Hi as [->|Hi]; [contradiction|]. rewrite row_cons. destruct (idec k i) as [->|_]; [contradiction|].
      rewrite <- (IH N2 Hi). ring.
Qed.

Lemma free_product : forall (D : X -> Prop) (E : Y -> Prop) P Q, free psi D P -> free chi E Q ->
  free product (fun xy => D (fst xy) /\ E (snd xy)) (fun ij => P (fst ij) /\ Q (snd ij)).
Proof.
  intros D E P Q F G l N Pl Z c [i j] H.
  set (js := nodup idec (map fst (map snd l))).
  assert (His : forall c i j, In (c, (i, j)) l -> In i js).
  { intros c' i' j' H'. apply nodup_In. apply in_map_iff. exists (i', j'). split; [reflexivity|]. apply in_map_iff.
    exists (c', (i', j')). auto. }
  assert (A : forall y, E y -> total chi (row l i) y = 0).
  { intros y Ey. apply (F (map (fun i => (total chi (row l i) y, i)) js)) with (i := i).
    - rewrite map_map. cbn [snd]. rewrite map_id. apply NoDup_nodup.
    - intros k Hk. rewrite map_map in Hk. cbn [snd] in Hk. rewrite map_id in Hk. apply nodup_In in Hk.
      apply in_map_iff in Hk. destruct Hk as [[k1 k2] [<- Hk]]. apply (Pl (k1, k2)) in Hk. apply Hk.
    - intros x Dx. rewrite <- grouped; [apply Z; auto|apply NoDup_nodup|exact His].
    - apply in_map_iff. exists i. split; [reflexivity|]. eapply His. exact H. }
  assert (S : forall c j, In (c, j) (row l i) <-> In (c, (i, j)) l).
  { clear. intros c j. unfold row, in_row. rewrite in_map_iff. split.
    - intros [[c' [i' j']] [Eq H]]. cbn in Eq. injection Eq as -> ->. apply filter_In in H. destruct H as [H B].
      cbn in B. destruct (idec i i') as [->|]; [exact H|discriminate].
    - intros H. exists (c, (i, j)). split; [reflexivity|]. apply filter_In. split; [exact H|]. cbn. destruct (idec i i); [reflexivity|contradiction]. }
  apply (G (row l i)) with (i := j).
  - clear - N. unfold row. rewrite map_map. cbn [snd].
    induction l as [|[c [i' j]] l IH]; [constructor|]. cbn [map snd] in N. apply NoDup_cons_iff in N. destruct N as [N1 N2].
    unfold in_row in *. cbn [filter snd fst]. destruct (idec i i') as [->|]; [|auto]. cbn [map snd]. constructor; [|auto].
    intros H. apply N1. apply in_map_iff in H. destruct H as [[c' [i'' j']] [<- H]]. apply filter_In in H. destruct H as [H B].
    cbn in B. destruct (idec i' i'') as [->|]; [|discriminate]. apply in_map_iff. eexists. split; [|exact H]. reflexivity.
  - intros k Hk. apply in_map_iff in Hk. destruct Hk as [[c' k'] [<- Hk]]. apply S in Hk.
    assert (Hk' : In (i, k') (map snd l)) by (apply in_map_iff; exists (c', (i, k')); auto). apply Pl in Hk'. apply Hk'.
  - exact A.
  - apply S. exact H.
Qed.
End Product.

(** Functions that belong to parts, each with points where the functions of the other parts of its rank or higher vanish. *)
Lemma free_parts : forall {I J X} (jdec : forall a b : J, {a = b} + {a <> b}) (psi : I -> X -> R) (part : I -> J) (rank : J -> nat)
    (D : X -> Prop) (DJ : J -> X -> Prop) (P : I -> Prop),
  (forall i x, P i -> DJ (part i) x -> D x) ->
  (forall i k x, P i -> P k -> DJ (part k) x -> part i <> part k -> (rank (part k) <= rank (part i))%nat -> psi i x = 0) ->
  (forall k, P k -> free psi (DJ (part k)) (fun i => P i /\ part i = part k)) -> free psi D P.
Proof.
  intros I J X jdec psi part rank D DJ P HD HV HF l N Pl Z.
  assert (Pi : forall c i, In (c, i) l -> P i).
  { intros c' i' H'. apply Pl. apply in_map_iff. exists (c', i'). auto. }
  assert (A : forall n c i, In (c, i) l -> (rank (part i) < n)%nat -> c = 0).
  { induction n as [|n IH]; intros c i H L; [lia|].
    destruct (Nat.eq_dec (rank (part i)) n) as [E|E]; [|apply (IH c i H); lia].
    set (b := fun k => if jdec (part k) (part i) then true else false).
    apply (HF i (Pi c i H)) with (l := filter (fun ci => b (snd ci)) l) (i := i).
    - apply NoDup_filter_snd. exact N.
    - intros k Hk. apply in_map_iff in Hk. destruct Hk as [[c' k'] [<- Hk]]. apply filter_In in Hk. destruct Hk as [Hk B].
      unfold b in B. cbn in *. destruct (jdec (part k') (part i)) as [->|]; [|discriminate]. split; [eapply Pi; exact Hk|reflexivity].
    - intros x Dx. rewrite total_filter; [apply Z; exact (HD i x (Pi c i H) Dx)|].
      intros c' k Hk B. unfold b in B. destruct (jdec (part k) (part i)) as [|NE]; [discriminate|].
      destruct (le_lt_dec (rank (part i)) (rank (part k))) as [L'|L'].
      + rewrite (HV k i x); [ring|eapply Pi; exact Hk|eapply Pi; exact H|exact Dx|exact NE|exact L'].
      + rewrite (IH c' k Hk); [ring|lia].
    - apply filter_In. split; [exact H|]. unfold b. cbn. destruct (jdec (part i) (part i)); [reflexivity|contradiction]. }
  intros c i H. apply (A (S (rank (part i))) c i H). lia.
Qed.

(** ** Polynomials: [poly n f a] says that f has degree at most n, with leading coefficient a *)
Fixpoint poly (n : nat) (f : R -> R) (a : R) : Prop :=
  match n with
  | O => forall x, f x = a
  | S n' => exists g b, poly n' g a /\ forall x, f x = b + x * g x
  end.

Lemma poly_ext : forall n f f' a a', poly n f a -> (forall x, f' x = f x) -> a = a' -> poly n f' a'.
Proof.
  induction n; intros f f' a a' H E <-; cbn in *; [intros; rewrite E; apply H|].
  destruct H as [g [b [H1 H2]]]. exists g, b. split; [exact H1|]. intros; rewrite E; apply H2.
Qed.
Lemma poly_plus : forall n f g a b, poly n f a -> poly n g b -> poly n (fun x => f x + g x) (a + b).
Proof.
  induction n; intros f g a b; cbn; [intros H H' x; rewrite H, H'; ring|].
  intros [f' [u [H1 H2]]] [g' [v [H3 H4]]]. exists (fun x => f' x + g' x), (u + v). split; [apply IHn; assumption|].
  intros; rewrite H2, H4; ring.
Qed.
Lemma poly_scale : forall n f a c, poly n f a -> poly n (fun x => c * f x) (c * a).
Proof.
  induction n; intros f a c; cbn; [intros H x; rewrite H; ring|].
  intros [f' [u [H1 H2]]]. exists (fun x => c * f' x), (c * u). split; [apply IHn; assumption|]. intros; rewrite H2; ring.
Qed.
Lemma poly_bump : forall n f a, poly n f a -> poly (S n) f 0.
Proof.
  induction n; intros f a H.
  - exists (fun _ => 0), a. split; [intro; reflexivity|]. intros x; rewrite (H x); ring.
  - destruct H as [g [b [H1 H2]]]. exists g, b. split; [eapply IHn; exact H1|exact H2].
Qed.
Lemma poly_bump_to : forall m n f a, poly n f a -> (n < m)%nat -> poly m f 0.
Proof.
  induction m; intros n f a H L; [lia|]. destruct (Nat.eq_dec n m) as [->|]; [eapply poly_bump; exact H|].
  apply poly_bump with (a := 0). eapply IHm; [exact H|lia].
Qed.
Lemma poly_x : forall n f a, poly n f a -> poly (S n) (fun x => x * f x) a.
Proof. intros n f a H. exists f, 0. split; [exact H|]. intros; ring. Qed.
Lemma poly_const : forall c, poly 0 (fun _ => c) c.
Proof. intros c x. reflexivity. Qed.

Lemma poly_factor : forall n f a r, poly (S n) f a -> exists q, poly n q a /\ forall x, f x - f r = (x - r) * q x.
Proof.
  induction n; intros f a r [g [b [H1 H2]]].
  - exists g. split; [exact H1|]. intros x. rewrite !H2, (H1 x), (H1 r). ring.
  - destruct (IHn g a r H1) as [q [Hq Eq]]. exists (fun x => g x + r * q x). split.
    + replace a with (a + r * 0) by ring. apply poly_plus; [exact H1|]. apply poly_scale. eapply poly_bump. exact Hq.
    + intros x. rewrite !H2. replace (b + x * g x - (b + r * g r)) with ((x - r) * g x + r * (g x - g r)) by ring.
      rewrite Eq. ring.
Qed.
Lemma poly_roots : forall n f a rs, poly n f a -> NoDup rs -> (n < length rs)%nat -> (forall r, In r rs -> f r = 0) -> a = 0.
Proof.
  induction n; intros f a rs H N L Z; (destruct rs as [|r rs]; [cbn in L; lia|]).
  - rewrite <- (H r). apply Z. left; reflexivity.
  - destruct (poly_factor n f a r H) as [q [Hq Eq]]. apply NoDup_cons_iff in N. destruct N as [N1 N2].
    apply (IHn q a rs Hq N2); [cbn in L; lia|]. intros r' Hr'.
    assert (E := Eq r'). rewrite (Z r), (Z r') in E; [|right; exact Hr'|left; reflexivity].
    assert ((r' - r) * q r' = 0) as E' by lra. apply Rmult_integral in E'. destruct E' as [E'|E']; [|exact E'].
    exfalso. apply N1. replace r with r' by lra. exact Hr'.
Qed.

(** many points of an interval *)
Lemma many_points : forall u v n, u < v -> exists rs, NoDup rs /\ length rs = n /\ forall r, In r rs -> u < r < v.
Proof.
  intros u v n L. exists (map (fun i => u + (v - u) / (INR i + 2)) (seq 0 n)). split; [|split].
  - apply FinFun.Injective_map_NoDup; [|apply seq_NoDup]. intros i j E. apply INR_eq.
    assert (A := pos_INR i). assert (B := pos_INR j). apply Rplus_eq_reg_l in E. unfold Rdiv in E. apply Rmult_eq_reg_l in E; [|lra].
    assert (/ (/ (INR i + 2)) = / (/ (INR j + 2))) as E' by (rewrite E; reflexivity). rewrite !Rinv_inv in E'. lra.
  - rewrite map_length. apply seq_length.
  - intros r H. apply in_map_iff in H. destruct H as [i [<- _]]. assert (A := pos_INR i).
    assert (0 < (v - u) / (INR i + 2)) by (apply Rdiv_lt_0_compat; lra).
    assert ((v - u) / (INR i + 2) < v - u); [|lra]. apply (Rmult_lt_reg_r (INR i + 2)); [lra|].
    unfold Rdiv. rewrite Rmult_assoc, Rinv_l, Rmult_1_r by lra. assert (0 < (v - u) * (INR i + 1)) by (apply Rmult_lt_0_compat; lra). lra.
Qed.

(** A family with one polynomial for each degree. *)
Lemma free_graded : forall (psi : nat -> R -> R) (P : nat -> Prop) u v, u < v ->
  (forall k, P k -> exists a, poly k (psi k) a /\ a <> 0) -> free psi (fun x => u < x < v) P.
Proof.
  intros psi P u v L H.
  assert (T : forall n l, (forall i, In i (map snd l) -> P i /\ (i < n)%nat) -> poly n (total psi l) 0).
  { induction l as [|[c i] l IH]; intros Hl; cbn [total].
    - destruct n; [intros x; reflexivity|].
      apply (poly_bump_to (S n) 0 _ 0); [intros x; reflexivity|lia].
    - destruct (Hl i) as [Pi Li]; [left; reflexivity|]. destruct (H i Pi) as [a [Ha _]].
      eapply poly_ext; [apply poly_plus; [apply poly_scale; eapply poly_bump_to; [exact Ha|exact Li]|apply IH; intros; apply Hl; right; assumption]|reflexivity|ring]. }
  assert (A : forall n l, NoDup (map snd l) -> (forall i, In i (map snd l) -> P i /\ (i < n)%nat) ->
    (forall x, u < x < v -> total psi l x = 0) -> forall c i, In (c, i) l -> c = 0).
  { induction n as [|n IH]; intros l N Pl Z c i Hi.
    - destruct (Pl i) as [_ F]; [apply in_map_iff; exists (c, i); auto|lia].
    - destruct (in_dec Nat.eq_dec n (map snd l)) as [M|M].
      + apply in_map_iff in M. destruct M as [[d m] [Em M]]. cbn in Em. subst m. apply in_split in M. destruct M as [l1 [l2 ->]].
        rewrite map_app in N, Pl. cbn [map snd] in N, Pl.
        assert (N' := NoDup_remove_1 _ _ _ N). assert (N'' := NoDup_remove_2 _ _ _ N).
        assert (Pl' : forall i, In i (map snd (l1 ++ l2)) -> P i /\ (i < n)%nat).
        { intros k Hk. rewrite map_app in Hk. destruct (Pl k) as [Pk Lk].
          { apply in_app_iff in Hk. apply in_app_iff. destruct Hk; [left|right; right]; assumption. }
          split; [exact Pk|]. assert (k <> n) by (intros ->; exact (N'' Hk)). lia. }
        assert (d = 0) as ->.
        { destruct (Pl n) as [Pn _]; [apply in_app_iff; right; left; reflexivity|]. destruct (H n Pn) as [a [Ha Na]].
          destruct (many_points u v (S n) L) as [rs [R1 [R2 R3]]].
          assert (Q : d * a + 0 = 0).
          { apply (poly_roots n (fun x => d * psi n x + total psi (l1 ++ l2) x) _ rs).
            - apply poly_plus; [apply poly_scale; exact Ha|apply T; exact Pl'].
            - exact R1.
            - lia.
            - intros r Hr. rewrite <- (Z r (R3 r Hr)). rewrite !total_app. cbn [total]. ring. }
          apply (Rmult_eq_reg_r a); [lra|exact Na]. }
        apply in_app_iff in Hi. destruct Hi as [Hi|[Hi|Hi]].
        * apply (IH (l1 ++ l2)) with (i := i); [rewrite map_app; exact N'|exact Pl'| |apply in_app_iff; left; exact Hi].
          intros x Hx. rewrite <- (Z x Hx). rewrite !total_app. cbn [total]. ring.
        * injection Hi as <- _. reflexivity.
        * apply (IH (l1 ++ l2)) with (i := i); [rewrite map_app; exact N'|exact Pl'| |apply in_app_iff; right; exact Hi].
          intros x Hx. rewrite <- (Z x Hx). rewrite !total_app. cbn [total]. ring.
      + apply (IH l N) with (i := i); [|exact Z|exact Hi]. intros k Hk. destruct (Pl k Hk) as [Pk Lk]. split; [exact Pk|].
        assert (k <> n) by (intros ->; exact (M Hk)). lia. }
  intros l N Pl Z. apply (A (S (list_max (map snd l))) l N); [|exact Z].
  intros i Hi. split; [apply Pl; exact Hi|]. assert (B := proj1 (list_max_le (map snd l) _) (le_n _)).
  rewrite Forall_forall in B. specialize (B i Hi). lia.
Qed.
