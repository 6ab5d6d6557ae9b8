(** The Roe flux as a sum over waves. *)
From Coq Require Import List Arith Reals Lia Lra.
From Verif Require Import Loop_model Loop_proofs Flux_model Flux_spec Flux_proofs FluxRoe_proofs FluxFace_proofs.
Import ListNotations.
Local Open Scope R_scope.

Lemma euler_inj d s t : euler d s = euler d t ->
  density s = density t /\ (forall i, (i < d)%nat -> momentum s i = momentum t i) /\ energy s = energy t.
Proof.
  intros E. split; [|split].
  - pose proof (get_euler_0 d s) as X. rewrite E, get_euler_0 in X. congruence.
  - intros i Hi. pose proof (get_euler_m d s i Hi) as X. rewrite E, get_euler_m in X by exact Hi. congruence.
  - pose proof (get_euler_e d s) as X. rewrite E, get_euler_e in X. congruence.
Qed.
Lemma dot_added n u v w : dot n u (fun i => v i + w i) = dot n u v + dot n u w.
Proof. unfold dot. rewrite <- sum_plus. apply sum_ext. intros. ring. Qed.
Lemma smoothed_corrected x : corrected (Rabs x) = smoothed x.
Proof.
  unfold corrected, smoothed, epsilon. destruct (Rlt_dec (Rabs x) (/ 100)); [|reflexivity].
  rewrite <- Rabs_mult, (Rabs_pos_eq (x * x)) by apply Rle_0_sqr. reflexivity.
Qed.

Section Waves.
  Variables (gamma : R) (d : nat) (l r : state) (n : nat -> R).
  Hypothesis Hg : 1 < gamma.
  Hypothesis Hl : gas gamma d l.
  Hypothesis Hr : gas gamma d r.
  Hypothesis Hn : dot d n n = 1.
  Let u := roeVelocity l r.
  Let c := roeSound gamma d l r.
  Let H := roeMean (enthalpy gamma d l) (enthalpy gamma d r) l r.

  Lemma c_pos : 0 < c.
  Proof. unfold c. rewrite <- (a1_roe gamma d l r Hg Hl Hr). apply a1_pos; assumption. Qed.
  Lemma a2_square : a2 gamma d l r = c * c.
  Proof.
    unfold c. rewrite <- (a1_roe gamma d l r Hg Hl Hr). unfold a1. rewrite sqrt_sqrt; [reflexivity|].
    left. apply a2_pos; assumption.
  Qed.
  Lemma c_square : c * c = (gamma - 1) * (H - dot d u u / 2).
  Proof.
    rewrite <- a2_square, (a2_eq gamma d l r Hg Hl Hr), (havg_roe gamma d l r Hl Hr). unfold al.
    rewrite (dot_ext d _ _ u u) by (intros; apply (avg_roe gamma d l r Hl Hr)). unfold H, Rdiv. ring.
  Qed.

  Section Given.
    Variables (a b : R) (w : state).
    Hypothesis W : waves gamma d l r n a b w.

    Lemma jump0 : density r - density l = a + b + density w.
    Proof. destruct (euler_inj _ _ _ (proj2 W)) as (E & _). rewrite E. cbn [density added scaled soundForward soundBackward]. ring. Qed.
    Lemma jumpM i : (i < d)%nat ->
      momentum r i - momentum l i = a * (u i + c * n i) + b * (u i - c * n i) + momentum w i.
    Proof.
      intros Hi. destruct (euler_inj _ _ _ (proj2 W)) as (_ & E & _). rewrite (E i Hi).
      cbn [momentum added scaled soundForward soundBackward]. fold u c. ring.
    Qed.
    Lemma jumpE : energy r - energy l = a * (H + c * dot d u n) + b * (H - c * dot d u n) + energy w.
    Proof.
      destruct (euler_inj _ _ _ (proj2 W)) as (_ & _ & E). rewrite E.
      cbn [energy added scaled soundForward soundBackward]. fold u c H. ring.
    Qed.
    Lemma jump_dot v : dot d v (momentum r) - dot d v (momentum l)
      = (a + b) * dot d v u + (a - b) * c * dot d v n + dot d v (momentum w).
    Proof.
      rewrite (dot_ext d v (momentum r) v (fun i => momentum l i + ((u i * (a + b) + n i * ((a - b) * c)) + momentum w i))).
      - rewrite dot_added, dot_added, dot_lin_r. ring.
      - reflexivity.
      - intros i Hi. pose proof (jumpM i Hi). lra.
    Qed.

    Lemma b4_waves : b4 gamma d l r = c * c * (a + b).
    Proof.
      unfold b4, dm, de, al. rewrite jump0, jumpE.
      rewrite (dot_ext d (avg l r) (momentum l) u (momentum l)), (dot_ext d (avg l r) (momentum r) u (momentum r)),
        (dot_ext d (avg l r) (avg l r) u u) by (intros; try reflexivity; apply (avg_roe gamma d l r Hl Hr)).
      pose proof (jump_dot u) as J. destruct W as ((K1 & K2) & _). fold u in K1, K2. rewrite K2, c_square.
      replace (dot d u (momentum l) - dot d u (momentum r)) with (- (dot d u (momentum r) - dot d u (momentum l))) by ring.
      rewrite J. field.
    Qed.
    Lemma b5_waves : b5 d l r n = c * (a - b).
    Proof.
      unfold b5, dm. rewrite jump0, (un_roe gamma d l r n Hl Hr). fold u.
      rewrite (dot_comm d (momentum r) n), (dot_comm d (momentum l) n).
      pose proof (jump_dot n) as J. destruct W as ((K1 & _) & _). fold u in K1.
      rewrite J, Hn, (dot_comm d n (momentum w)), K1, (dot_comm d n u). ring.
    Qed.

    Lemma closed_waves : euler d (halfScaled 1 (closed gamma d l r n)) = euler d (roeWaves gamma d l r n a b w).
    Proof.
      pose proof c_pos as C. destruct Hl as (Rl & _), Hr as (Rr & _).
      assert (B6 : b6 gamma d l r n = l1 gamma d l r n * a + l2 gamma d l r n * b - l3 d l r n * (a + b)).
      { unfold b6. rewrite b4_waves, b5_waves, a2_square, (a1_roe gamma d l r Hg Hl Hr). fold c. unfold b2, b3. field. lra. }
      assert (B7 : b7 gamma d l r n = c * (l1 gamma d l r n * a - l2 gamma d l r n * b - l3 d l r n * (a - b))).
      { unfold b7. rewrite b4_waves, b5_waves, (a1_roe gamma d l r Hg Hl Hr). fold c. unfold b2, b3. field. lra. }
      assert (S1 : l1 gamma d l r n = smoothed (dot d u n + c)).
      { unfold l1. rewrite (un_roe gamma d l r n Hl Hr), (a1_roe gamma d l r Hg Hl Hr). apply smoothed_corrected. }
      assert (S2 : l2 gamma d l r n = smoothed (dot d u n - c)).
      { unfold l2. rewrite (un_roe gamma d l r n Hl Hr), (a1_roe gamma d l r Hg Hl Hr). apply smoothed_corrected. }
      assert (S3 : l3 d l r n = smoothed (dot d u n)).
      { unfold l3. rewrite (un_roe gamma d l r n Hl Hr). apply smoothed_corrected. }
      rewrite S1, S2, S3 in B6, B7.
      apply euler_ext; unfold closed, halfScaled, roeWaves;
        cbn [density momentum energy added scaled soundForward soundBackward eulerPhysical]; fold u c H.
      - rewrite B6, S3. unfold dm. rewrite jump0. field.
      - intros i Hi. rewrite B6, B7, S3, (jumpM i Hi), (avg_roe gamma d l r Hl Hr). fold (u i). field. split; lra.
      - rewrite B6, B7, S3, (un_roe gamma d l r n Hl Hr), (havg_roe gamma d l r Hl Hr). unfold de. rewrite jumpE. fold u H. field. split; lra.
    Qed.
  End Given.

  (** every jump is a sum of waves *)
  Lemma waves_exist : exists a b w, waves gamma d l r n a b w.
  Proof.
    pose proof c_pos as C. pose proof c_square as CC.
    pose (p := (gamma - 1) * ((energy r - energy l) - dot d u (fun i => momentum r i - momentum l i)
                              + (density r - density l) * (dot d u u / 2))).
    pose (q := dot d (fun i => momentum r i - momentum l i) n - (density r - density l) * dot d u n).
    pose (a := (p / (c * c) + q / c) / 2). pose (b := (p / (c * c) - q / c) / 2).
    exists a, b, (State (density r - density l - (a + b))
      (fun i => (momentum r i - momentum l i) + (u i * (- (a + b)) + n i * (- ((a - b) * c))))
      (energy r - energy l - (a * (H + c * dot d u n) + b * (H - c * dot d u n)))).
    assert (AB : (a + b) * (c * c) = p) by (unfold a, b; field; lra).
    assert (AB' : (a - b) * c = q) by (unfold a, b; field; lra).
    split; [split|].
    - cbn [density momentum]. fold u.
      rewrite dot_comm, dot_added, dot_lin_r, Hn, (dot_comm d n u), (dot_comm d n (fun i => _ - _)).
      unfold q in AB'. lra.
    - cbn [density momentum energy]. fold u. rewrite dot_added, dot_lin_r.
      assert (P : p = (gamma - 1) * ((a + b) * (H - dot d u u / 2))) by (rewrite <- AB, CC; ring).
      unfold p in P. apply Rmult_eq_reg_l in P; [|lra]. lra.
    - apply euler_ext; cbn [density momentum energy added scaled soundForward soundBackward]; fold u c H; intros; ring.
  Qed.
End Waves.

(** a normal of any length *)
Section Area.
  Variables (gamma : R) (d : nat) (l r : state) (n : nat -> R) (area : R).
  Hypothesis Hg : 1 < gamma.
  Hypothesis Hl : gas gamma d l.
  Hypothesis Hr : gas gamma d r.
  Hypothesis Hn : dot d n n = 1.
  Hypothesis Ha : 0 < area.

  Lemma length_area : length_of d (fun i => area * n i) = area.
  Proof.
    unfold length_of. rewrite dot_scale_r, dot_comm, dot_scale_r, Hn, Rmult_1_r. apply sqrt_square. lra.
  Qed.
  Lemma eulerFlux_area a b w : waves gamma d l r n a b w ->
    eulerFlux gamma d (euler d l) (euler d r) (vec d (fun i => area * n i))
    = Some (euler d (scaled area (roeWaves gamma d l r n a b w))).
  Proof.
    intros W. rewrite eulerFlux_ok by (try assumption; rewrite length_area; exact Ha). f_equal. rewrite length_area.
    assert (U : forall i, unitOf d (fun i => area * n i) i = n i) by (intros i; unfold unitOf; rewrite length_area; field; lra).
    destruct (closed_ext gamma d l r _ n U) as (E1 & E2 & E3).
    destruct (euler_inj _ _ _ (closed_waves gamma d l r n Hg Hl Hr Hn a b w W)) as (D & M & E).
    apply euler_ext; cbn [halfScaled scaled density momentum energy] in *.
    - rewrite E1, <- D. ring.
    - intros i Hi. rewrite E2, <- (M i Hi). ring.
    - rewrite E3, <- E. ring.
  Qed.
End Area.
