(** Lemmas about sums and vectors, and the Roe flux in closed form. *)
From Coq Require Import List Arith Reals Lia Lra.
From Verif Require Import Loop_model Loop_proofs Flux_model Flux_spec.
Import ListNotations.
Local Open Scope R_scope.

(** * Sums *)
Lemma sum_ext n f g : (forall i, (i < n)%nat -> f i = g i) -> sum n f = sum n g.
Proof. induction n as [|n IH]; intros H; cbn [sum]; [reflexivity|]. rewrite IH, H by auto. reflexivity. Qed.
Lemma sum_plus n f g : sum n (fun i => f i + g i) = sum n f + sum n g.
Proof. induction n as [|n IH]; cbn [sum]; [lra|]. rewrite IH. lra. Qed.
Lemma sum_scale n c f : sum n (fun i => c * f i) = c * sum n f.
Proof. induction n as [|n IH]; cbn [sum]; [lra|]. rewrite IH. lra. Qed.
Lemma sum_nonneg n f : (forall i, (i < n)%nat -> 0 <= f i) -> 0 <= sum n f.
Proof.
  induction n as [|n IH]; intros H; cbn [sum]; [lra|]. pose proof (H n ltac:(lia)).
  assert (0 <= sum n f) by (apply IH; auto). lra.
Qed.
Lemma sum_zero n f : (forall i, (i < n)%nat -> f i = 0) -> sum n f = 0.
Proof. induction n as [|n IH]; intros H; cbn [sum]; [lra|]. rewrite IH, H by auto. lra. Qed.
Lemma sum_opp n f : sum n (fun i => - f i) = - sum n f.
Proof. induction n as [|n IH]; cbn [sum]; [lra|]. rewrite IH. lra. Qed.
Lemma sum_single n f i : (i < n)%nat -> (forall j, (j < n)%nat -> j <> i -> f j = 0) -> sum n f = f i.
Proof.
  induction n as [|n IH]; intros Hi H; [lia|]. cbn [sum]. destruct (Nat.eq_dec i n) as [->|Hn].
  - rewrite sum_zero; [lra|]. intros j Hj. apply H; lia.
  - rewrite IH; [|lia|intros; apply H; lia]. rewrite (H n) by lia. lra.
Qed.
Lemma dot_comm n u v : dot n u v = dot n v u.
Proof. apply sum_ext. intros. ring. Qed.
Lemma dot_lin n u v x y w : dot n (fun i => u i * x + v i * y) w = x * dot n u w + y * dot n v w.
Proof.
  unfold dot. rewrite <- !sum_scale, <- sum_plus. apply sum_ext. intros. ring.
Qed.
Lemma dot_lin_r n u v x y w : dot n w (fun i => u i * x + v i * y) = x * dot n w u + y * dot n w v.
Proof. rewrite dot_comm, dot_lin, (dot_comm n u), (dot_comm n v). reflexivity. Qed.
Lemma dot_ext n u v u' v' : (forall i, (i < n)%nat -> u i = u' i) -> (forall i, (i < n)%nat -> v i = v' i) ->
  dot n u v = dot n u' v'.
Proof. intros H H'. apply sum_ext. intros i Hi. rewrite H, H' by exact Hi. reflexivity. Qed.
Lemma dot_opp_r n u v : dot n u (fun i => - v i) = - dot n u v.
Proof. unfold dot. rewrite <- sum_opp. apply sum_ext. intros. ring. Qed.
Lemma dot_opp_l n u v : dot n (fun i => - u i) v = - dot n u v.
Proof. rewrite dot_comm, dot_opp_r, dot_comm. reflexivity. Qed.
Lemma dot_scale_r n c u v : dot n u (fun i => c * v i) = c * dot n u v.
Proof. unfold dot. rewrite <- sum_scale. apply sum_ext. intros. ring. Qed.
Lemma dot_square n u : 0 <= dot n u u.
Proof. apply sum_nonneg. intros. apply Rle_0_sqr. Qed.

(** * Operations on vectors *)
Lemma div_ok x y : y <> 0 -> div x y = Some (x / y).
Proof. intros H. unfold div. destruct (Req_EM_T y 0); [contradiction|reflexivity]. Qed.
Lemma root_ok x : 0 <= x -> root x = Some (sqrt x).
Proof. intros H. unfold root. destruct (Rlt_dec x 0); [lra|reflexivity]. Qed.

Lemma accumulate_ok init n f g : (forall i, (i < n)%nat -> f i = Some (g i)) ->
  accumulate init n f = Some (init + sum n g).
Proof.
  intros H. unfold accumulate.
  destruct (for_loop_inv (fun i acc => acc = init + sum i g)
    (fun i acc => bind (f i) (fun x => Some (acc + x))) n init) as (s & E & ->).
  - cbn [sum]. lra.
  - intros i s Hi ->. rewrite H by exact Hi. cbn [bind]. eexists. split; [reflexivity|]. cbn [sum]. lra.
  - exact E.
Qed.

Lemma get_vec d u i : (i < d)%nat -> get (vec d u) i = Some (u i).
Proof. intros H. apply nth_error_map_seq. exact H. Qed.
Lemma vec_length d u : length (vec d u) = d.
Proof. unfold vec. rewrite map_length, seq_length. reflexivity. Qed.
Lemma vec_ext d u v : (forall i, (i < d)%nat -> u i = v i) -> vec d u = vec d v.
Proof. intros H. apply map_ext_in. intros i Hi%in_seq. apply H. lia. Qed.
Lemma euler_length d s : length (euler d s) = (d + 2)%nat.
Proof. unfold euler. cbn [length]. rewrite app_length, vec_length. cbn. lia. Qed.
Lemma get_euler_0 d s : get (euler d s) 0 = Some (density s).
Proof. reflexivity. Qed.
Lemma get_euler_m d s i : (i < d)%nat -> get (euler d s) (i + 1) = Some (momentum s i).
Proof.
  intros H. unfold get, euler. rewrite Nat.add_1_r. cbn [nth_error].
  rewrite nth_error_app1 by (rewrite vec_length; exact H). apply get_vec. exact H.
Qed.
Lemma get_euler_e d s : get (euler d s) (d + 1) = Some (energy s).
Proof.
  unfold get, euler. rewrite Nat.add_1_r. cbn [nth_error].
  rewrite nth_error_app2 by (rewrite vec_length; lia). rewrite vec_length, Nat.sub_diag. reflexivity.
Qed.
Lemma euler_ext d s t : density s = density t -> (forall i, (i < d)%nat -> momentum s i = momentum t i) ->
  energy s = energy t -> euler d s = euler d t.
Proof. intros H1 H2 H3. unfold euler. rewrite H1, H3, (vec_ext _ _ _ H2). reflexivity. Qed.

Lemma collect_pointwise d (f : nat -> option R) (v : list R) : length v = d ->
  (forall i, (i < d)%nat -> exists x, f i = Some x /\ nth_error v i = Some x) -> collect d f = Some v.
Proof.
  intros HL H. rewrite (collect_ok d f (fun i => nth i v 0)).
  - f_equal. apply nth_error_ext_le; rewrite map_length, seq_length; [symmetry; exact HL|].
    intros i Hi. rewrite nth_error_map_seq by exact Hi.
    symmetry. apply nth_error_nth'. lia.
  - intros i Hi. destruct (H i Hi) as (x & E & N). rewrite E. f_equal. symmetry. apply nth_error_nth. exact N.
Qed.

Definition difference (r l : state) : state :=
  State (density r - density l) (fun i => momentum r i - momentum l i) (energy r - energy l).
Lemma minus_euler d r l : minus (euler d r) (euler d l) = Some (euler d (difference r l)).
Proof.
  unfold minus. rewrite !euler_length, Nat.eqb_refl. apply collect_pointwise; [apply euler_length|].
  intros i Hi. destruct i as [|i].
  - rewrite !get_euler_0. eexists. split; reflexivity.
  - destruct (Nat.eq_dec i d) as [->|Hn].
    + replace (S d) with (d + 1)%nat by lia. change (@nth_error R) with get. rewrite !get_euler_e.
      eexists. split; reflexivity.
    + replace (S i) with (i + 1)%nat by lia. change (@nth_error R) with get. rewrite !get_euler_m by lia.
      eexists. split; reflexivity.
Qed.

Lemma scale_euler d c s :
  scale c (euler d s) = euler d (State (density s * c) (fun i => momentum s i * c) (energy s * c)).
Proof. unfold scale, euler, vec. cbn [map density momentum energy]. rewrite map_app, map_map. reflexivity. Qed.
Lemma neg_euler d s : neg (euler d s) = euler d (State (- density s) (fun i => - momentum s i) (- energy s)).
Proof. unfold neg, euler, vec. cbn [map density momentum energy]. rewrite map_app, map_map. reflexivity. Qed.

(** * The Roe flux in closed form *)
Definition corrected (lam : R) : R :=
  if Rlt_dec lam epsilon then (lam * lam + epsilon * epsilon) / (2 * epsilon) else lam.
Lemma correction_ok lam : entropyCorrection lam = Some (corrected lam).
Proof.
  unfold entropyCorrection, corrected. destruct (Rlt_dec lam epsilon); [|reflexivity].
  apply div_ok. unfold epsilon. lra.
Qed.

Section Closed.
  Variables (gamma : R) (d : nat).
  Variables (l r : state) (n : nat -> R).

  Definition t1 : R := 1 / (density l + sqrt (density l) * sqrt (density r)).
  Definition t2 : R := 1 / (density r + sqrt (density l) * sqrt (density r)).
  Definition avg (i : nat) : R := momentum l i * t1 + momentum r i * t2.
  Definition havg : R := (energy l + pressure gamma d l) * t1 + (energy r + pressure gamma d r) * t2.
  Definition al : R := dot d avg avg * / 2.
  Definition un : R := dot d avg n.
  Definition a2 : R := Rabs ((gamma - 1) * (havg - al)).
  Definition a1 : R := sqrt a2.
  Definition l1 : R := corrected (Rabs (un + a1)).
  Definition l2 : R := corrected (Rabs (un - a1)).
  Definition l3 : R := corrected (Rabs un).
  Definition b2 : R := / 2 * (l1 - l2).
  Definition b3 : R := / 2 * (l1 + l2) - l3.
  Definition dm : R := density r - density l.
  Definition de : R := energy r - energy l.
  Definition b4 : R := (al * dm + (dot d avg (momentum l) - dot d avg (momentum r)) + de) * (gamma - 1).
  Definition b5 : R := - un * dm + (dot d (momentum r) n - dot d (momentum l) n).
  Definition b6 : R := b3 * b4 * (1 / a2) + b2 * b5 * (1 / a1).
  Definition b7 : R := b2 * b4 * (1 / a1) + b3 * b5.
  Definition closed : state :=
    State (dot d (momentum l) n + dot d (momentum r) n - (l3 * dm + b6))
          (fun i => dot d (momentum l) n * momentum l i * (1 / density l)
                    + dot d (momentum r) n * momentum r i * (1 / density r)
                    + (pressure gamma d l + pressure gamma d r) * n i
                    - (l3 * (momentum r i - momentum l i) + avg i * b6 + n i * b7))
          (dot d (momentum l) n * (1 / density l) * (energy l + pressure gamma d l)
           + dot d (momentum r) n * (1 / density r) * (energy r + pressure gamma d r)
           - (l3 * de + havg * b6 + un * b7)).
End Closed.

Lemma pressure_ok gamma d s : density s <> 0 ->
  pressureOf gamma d (euler d s) (1 / density s) = Some (pressure gamma d s).
Proof.
  intros H. unfold pressureOf. rewrite (accumulate_ok _ _ _ (fun i => momentum s i * momentum s i)).
  - cbn [bind]. rewrite get_euler_e. cbn [bind]. f_equal. unfold pressure, dot. field. exact H.
  - intros i Hi. rewrite get_euler_m by exact Hi. reflexivity.
Qed.

(** the square of the averaged speed of sound is positive *)
Section Sound.
  Variables (gamma : R) (d : nat) (l r : state).
  Hypothesis Hg : 1 < gamma.
  Hypothesis Hl : gas gamma d l.
  Hypothesis Hr : gas gamma d r.

  Lemma t1_root : t1 l r = / (sqrt (density l) * (sqrt (density l) + sqrt (density r))).
  Proof.
    unfold t1. rewrite <- (sqrt_sqrt (density l)) at 1 by (destruct Hl; lra).
    unfold Rdiv. rewrite Rmult_1_l. f_equal. ring.
  Qed.
  Lemma t2_root : t2 l r = / (sqrt (density r) * (sqrt (density l) + sqrt (density r))).
  Proof.
    unfold t2. rewrite <- (sqrt_sqrt (density r)) at 1 by (destruct Hr; lra).
    unfold Rdiv. rewrite Rmult_1_l. f_equal. ring.
  Qed.

  Lemma avg_square : dot d (avg l r) (avg l r) =
    t1 l r * t1 l r * dot d (momentum l) (momentum l) + 2 * t1 l r * t2 l r * dot d (momentum l) (momentum r)
    + t2 l r * t2 l r * dot d (momentum r) (momentum r).
  Proof.
    unfold avg. rewrite dot_lin, !dot_lin_r, (dot_comm d (momentum r) (momentum l)). ring.
  Qed.

  Lemma sound_positive : 0 < (gamma - 1) * (havg gamma d l r - al d l r).
  Proof.
    apply Rmult_lt_0_compat; [lra|]. destruct Hl as (Rl & Pl), Hr as (Rr & Pr).
    pose proof (sqrt_lt_R0 _ Rl) as Zl. pose proof (sqrt_lt_R0 _ Rr) as Zr.
    pose proof (sqrt_sqrt (density l)) as Sl. pose proof (sqrt_sqrt (density r)) as Sr.
    unfold havg, al. rewrite avg_square, t1_root, t2_root.
    set (zl := sqrt (density l)) in *. set (zr := sqrt (density r)) in *.
    specialize (Sl ltac:(lra)). specialize (Sr ltac:(lra)).
    assert (Hd : 0 <= dot d (fun i => momentum l i * (zr / zl) + momentum r i * (- (zl / zr)))
                          (fun i => momentum l i * (zr / zl) + momentum r i * (- (zl / zr)))) by apply dot_square.
    rewrite dot_lin, !dot_lin_r, (dot_comm d (momentum r) (momentum l)) in Hd.
    assert (El : energy l = pressure gamma d l / (gamma - 1)
                          + dot d (momentum l) (momentum l) / (2 * (zl * zl))).
    { unfold pressure. rewrite Sl. field. lra. }
    assert (Er : energy r = pressure gamma d r / (gamma - 1)
                          + dot d (momentum r) (momentum r) / (2 * (zr * zr))).
    { unfold pressure. rewrite Sr. field. lra. }
    rewrite El, Er.
    set (A := dot d (momentum l) (momentum l)) in *. set (B := dot d (momentum l) (momentum r)) in *.
    set (C := dot d (momentum r) (momentum r)) in *.
    set (pl := pressure gamma d l) in *. set (pr := pressure gamma d r) in *.
    clearbody A B C pl pr zl zr.
    match goal with |- 0 < ?x => replace x with
      ((pl * (gamma / (gamma - 1))) * / (zl * (zl + zr)) + (pr * (gamma / (gamma - 1))) * / (zr * (zl + zr))
       + / 2 * (/ (zl * (zl + zr)) * / (zr * (zl + zr))
         * (zr / zl * (zr / zl * A + - (zl / zr) * B) + - (zl / zr) * (zr / zl * B + - (zl / zr) * C))))
    end.
    - assert (0 < gamma / (gamma - 1)) by (apply Rdiv_lt_0_compat; lra).
      assert (I1 : 0 < / (zl * (zl + zr))) by (apply Rinv_0_lt_compat, Rmult_lt_0_compat; lra).
      assert (I2 : 0 < / (zr * (zl + zr))) by (apply Rinv_0_lt_compat, Rmult_lt_0_compat; lra).
      apply Rplus_lt_le_0_compat.
      + apply Rplus_lt_0_compat; (apply Rmult_lt_0_compat; [apply Rmult_lt_0_compat|]; assumption).
      + apply Rmult_le_pos; [lra|]. apply Rmult_le_pos; [|exact Hd].
        apply Rmult_le_pos; lra.
    - field. lra.
  Qed.

  Lemma a2_eq : a2 gamma d l r = (gamma - 1) * (havg gamma d l r - al d l r).
  Proof. unfold a2. apply Rabs_pos_eq. left. apply sound_positive. Qed.
  Lemma a2_pos : 0 < a2 gamma d l r.
  Proof. rewrite a2_eq. apply sound_positive. Qed.
  Lemma a1_pos : 0 < a1 gamma d l r.
  Proof. apply sqrt_lt_R0, a2_pos. Qed.
  Lemma a1_sqr : a1 gamma d l r * a1 gamma d l r = a2 gamma d l r.
  Proof. apply sqrt_sqrt. left. apply a2_pos. Qed.
End Sound.

Lemma roeTwice_ok gamma d l r n : 1 < gamma -> gas gamma d l -> gas gamma d r ->
  roeTwice gamma d (euler d l) (euler d r) (vec d n) = Some (euler d (closed gamma d l r n)).
Proof.
  intros Hg Hl Hr. destruct Hl as (Rl & Pl) eqn:E1. destruct Hr as (Rr & Pr) eqn:E2.
  pose proof (a2_pos gamma d l r Hg Hl Hr) as A2. pose proof (a1_pos gamma d l r Hg Hl Hr) as A1.
  pose proof (sqrt_lt_R0 _ Rl) as Zl. pose proof (sqrt_lt_R0 _ Rr) as Zr.
  assert (0 < sqrt (density l) * sqrt (density r)) by (apply Rmult_lt_0_compat; assumption).
  unfold roeTwice. rewrite minus_euler. cbn [bind]. rewrite !get_euler_0. cbn [bind].
  rewrite (root_ok (density l)), (root_ok (density r)) by lra. cbn [bind].
  rewrite !div_ok by lra. cbn [bind].
  change (1 / (density l + sqrt (density l) * sqrt (density r))) with (t1 l r).
  change (1 / (density r + sqrt (density l) * sqrt (density r))) with (t2 l r).
  rewrite (collect_ok _ _ (avg l r)).
  2: { intros i Hi. rewrite !get_euler_m by exact Hi. reflexivity. }
  change (map (avg l r) (seq 0 d)) with (vec d (avg l r)). cbn [bind].
  rewrite !pressure_ok by lra. cbn [bind]. rewrite !get_euler_e. cbn [bind].
  rewrite (accumulate_ok 0 d _ (fun i => avg l r i * avg l r i)).
  2: { intros i Hi. rewrite get_vec by exact Hi. reflexivity. }
  cbn [bind].
  rewrite (accumulate_ok 0 d _ (fun i => avg l r i * n i)).
  2: { intros i Hi. rewrite !get_vec by exact Hi. reflexivity. }
  cbn [bind]. rewrite !Rplus_0_l.
  change (sum d (fun i => avg l r i * avg l r i)) with (dot d (avg l r) (avg l r)).
  change (dot d (avg l r) (avg l r) * / 2) with (al d l r).
  change (sum d (fun i => avg l r i * n i)) with (un d l r n).
  cbv zeta.
  change ((energy l + pressure gamma d l) * t1 l r + (energy r + pressure gamma d r) * t2 l r) with (havg gamma d l r).
  change (Rabs ((gamma - 1) * (havg gamma d l r - al d l r))) with (a2 gamma d l r).
  rewrite (root_ok (a2 gamma d l r)) by lra. cbn [bind].
  change (sqrt (a2 gamma d l r)) with (a1 gamma d l r).
  rewrite !div_ok by lra. cbn [bind]. rewrite !correction_ok. cbn [bind].
  change (corrected (Rabs (un d l r n + a1 gamma d l r))) with (l1 gamma d l r n).
  change (corrected (Rabs (un d l r n - a1 gamma d l r))) with (l2 gamma d l r n).
  change (corrected (Rabs (un d l r n))) with (l3 d l r n).
  change (/ 2 * (l1 gamma d l r n - l2 gamma d l r n)) with (b2 gamma d l r n).
  change (/ 2 * (l1 gamma d l r n + l2 gamma d l r n) - l3 d l r n) with (b3 gamma d l r n).
  rewrite (accumulate_ok _ d _ (fun i => - avg l r i * (momentum r i - momentum l i))).
  2: { intros i Hi. rewrite get_vec, get_euler_m by exact Hi. reflexivity. }
  cbn [bind].
  rewrite (accumulate_ok _ d _ (fun i => n i * (momentum r i - momentum l i))).
  2: { intros i Hi. rewrite get_vec, get_euler_m by exact Hi. reflexivity. }
  cbn [bind].
  rewrite (accumulate_ok _ d _ (fun i => momentum l i * n i)).
  2: { intros i Hi. rewrite get_vec, get_euler_m by exact Hi. reflexivity. }
  cbn [bind].
  rewrite (accumulate_ok _ d _ (fun i => momentum r i * n i)).
  2: { intros i Hi. rewrite get_vec, get_euler_m by exact Hi. reflexivity. }
  cbn [bind density momentum energy difference]. rewrite !Rplus_0_l.
  assert (S4 : sum d (fun i => - avg l r i * (momentum r i - momentum l i))
             = dot d (avg l r) (momentum l) - dot d (avg l r) (momentum r)).
  { unfold dot, Rminus. rewrite <- sum_opp, <- sum_plus. apply sum_ext. intros. ring. }
  assert (S5 : sum d (fun i => n i * (momentum r i - momentum l i))
             = dot d (momentum r) n - dot d (momentum l) n).
  { unfold dot, Rminus. rewrite <- sum_opp, <- sum_plus. apply sum_ext. intros. ring. }
  rewrite S4, S5.
  change (sum d (fun i => momentum l i * n i)) with (dot d (momentum l) n).
  change (sum d (fun i => momentum r i * n i)) with (dot d (momentum r) n).
  change (density r - density l) with (dm l r). change (energy r - energy l) with (de l r).
  change ((al d l r * dm l r + (dot d (avg l r) (momentum l) - dot d (avg l r) (momentum r)) + de l r) * (gamma - 1))
    with (b4 gamma d l r).
  change (- un d l r n * dm l r + (dot d (momentum r) n - dot d (momentum l) n)) with (b5 d l r n).
  change (b3 gamma d l r n * b4 gamma d l r * (1 / a2 gamma d l r) + b2 gamma d l r n * b5 d l r n * (1 / a1 gamma d l r))
    with (b6 gamma d l r n).
  change (b2 gamma d l r n * b4 gamma d l r * (1 / a1 gamma d l r) + b3 gamma d l r n * b5 d l r n)
    with (b7 gamma d l r n).
  rewrite (collect_ok d _ (momentum (closed gamma d l r n))).
  2: { intros i Hi. rewrite !get_vec, !get_euler_m by exact Hi. reflexivity. }
  reflexivity.
Qed.
