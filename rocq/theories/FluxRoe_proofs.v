(** Properties of the Roe flux. *)
From Coq Require Import List Arith Reals Lia Lra.
From Verif Require Import Loop_model Loop_proofs Flux_model Flux_spec Flux_proofs.
Import ListNotations.
Local Open Scope R_scope.

(** * Equal states *)
Lemma closed_same gamma d s n : 1 < gamma -> gas gamma d s ->
  let c := closed gamma d s s n in let p := eulerPhysical gamma d s n in
  density c = 2 * density p /\ (forall i, momentum c i = 2 * momentum p i) /\ energy c = 2 * energy p.
Proof.
  intros Hg Hs. cbv zeta. assert (density s <> 0) by (destruct Hs; lra).
  assert (B4 : b4 gamma d s s = 0) by (unfold b4, dm, de; ring).
  assert (B5 : b5 d s s n = 0) by (unfold b5, dm; ring).
  assert (B6 : b6 gamma d s s n = 0) by (unfold b6; rewrite B4, B5; ring).
  assert (B7 : b7 gamma d s s n = 0) by (unfold b7; rewrite B4, B5; ring).
  unfold closed, eulerPhysical. cbn [density momentum energy]. rewrite B6, B7. unfold dm, de.
  repeat split; intros; field; assumption.
Qed.

(** * Exchanging the states and reversing the normal *)
Section Exchange.
  Variables (gamma : R) (d : nat) (l r : state) (n : nat -> R).
  Let n' := opposite n.

  Lemma t_swap : t1 r l = t2 l r /\ t2 r l = t1 l r.
  Proof. unfold t1, t2. rewrite (Rmult_comm (sqrt (density r))). split; reflexivity. Qed.
  Lemma avg_swap i : avg r l i = avg l r i.
  Proof. unfold avg. destruct t_swap as (-> & ->). ring. Qed.
  Lemma havg_swap : havg gamma d r l = havg gamma d l r.
  Proof. unfold havg. destruct t_swap as (-> & ->). ring. Qed.
  Lemma al_swap : al d r l = al d l r.
  Proof. unfold al. rewrite (dot_ext d _ _ (avg l r) (avg l r)); [reflexivity| |]; intros; apply avg_swap. Qed.
  Lemma un_swap : un d r l n' = - un d l r n.
  Proof.
    unfold un, n', opposite. rewrite dot_opp_r. f_equal. apply dot_ext; intros; [apply avg_swap|reflexivity].
  Qed.
  Lemma a2_swap : a2 gamma d r l = a2 gamma d l r.
  Proof. unfold a2. rewrite havg_swap, al_swap. reflexivity. Qed.
  Lemma a1_swap : a1 gamma d r l = a1 gamma d l r.
  Proof. unfold a1. rewrite a2_swap. reflexivity. Qed.
  Lemma l1_swap : l1 gamma d r l n' = l2 gamma d l r n.
  Proof.
    unfold l1, l2. rewrite un_swap, a1_swap. f_equal.
    replace (- un d l r n + a1 gamma d l r) with (- (un d l r n - a1 gamma d l r)) by ring. apply Rabs_Ropp.
  Qed.
  Lemma l2_swap : l2 gamma d r l n' = l1 gamma d l r n.
  Proof.
    unfold l1, l2. rewrite un_swap, a1_swap. f_equal.
    replace (- un d l r n - a1 gamma d l r) with (- (un d l r n + a1 gamma d l r)) by ring. apply Rabs_Ropp.
  Qed.
  Lemma l3_swap : l3 d r l n' = l3 d l r n.
  Proof. unfold l3. rewrite un_swap, Rabs_Ropp. reflexivity. Qed.
  Lemma b2_swap : b2 gamma d r l n' = - b2 gamma d l r n.
  Proof. unfold b2. rewrite l1_swap, l2_swap. ring. Qed.
  Lemma b3_swap : b3 gamma d r l n' = b3 gamma d l r n.
  Proof. unfold b3. rewrite l1_swap, l2_swap, l3_swap. ring. Qed.
  Lemma b4_swap : b4 gamma d r l = - b4 gamma d l r.
  Proof.
    unfold b4, dm, de. rewrite al_swap.
    rewrite (dot_ext d (avg r l) (momentum r) (avg l r) (momentum r)),
            (dot_ext d (avg r l) (momentum l) (avg l r) (momentum l))
      by (intros; auto using avg_swap). ring.
  Qed.
  Lemma b5_swap : b5 d r l n' = b5 d l r n.
  Proof. unfold b5, dm. rewrite un_swap. unfold n', opposite. rewrite !dot_opp_r. ring. Qed.
  Lemma b6_swap : b6 gamma d r l n' = - b6 gamma d l r n.
  Proof. unfold b6. rewrite b2_swap, b3_swap, b4_swap, b5_swap, a1_swap, a2_swap. ring. Qed.
  Lemma b7_swap : b7 gamma d r l n' = b7 gamma d l r n.
  Proof. unfold b7. rewrite b2_swap, b3_swap, b4_swap, b5_swap, a1_swap. ring. Qed.

  Lemma closed_swap : let c := closed gamma d l r n in let c' := closed gamma d r l n' in
    density c' = - density c /\ (forall i, momentum c' i = - momentum c i) /\ energy c' = - energy c.
  Proof.
    cbv zeta. unfold closed. cbn [density momentum energy].
    rewrite b6_swap, b7_swap, l3_swap, un_swap, havg_swap. unfold n', opposite. rewrite !dot_opp_r. unfold dm, de.
    split; [ring|]. split; [intros i; rewrite avg_swap; ring|ring].
  Qed.
End Exchange.

(** * Supersonic flow *)
Section Upwind.
  Variables (gamma : R) (d : nat) (l r : state) (n : nat -> R).
  Hypothesis Hg : 1 < gamma.
  Hypothesis Hl : gas gamma d l.
  Hypothesis Hr : gas gamma d r.

  (** the averages of the program are those of Roe *)
  Lemma avg_roe i : avg l r i = roeVelocity l r i.
  Proof.
    unfold avg, roeVelocity, roeMean. rewrite (t1_root gamma d l r Hl), (t2_root gamma d l r Hr).
    destruct Hl as (Rl & _), Hr as (Rr & _).
    pose proof (sqrt_lt_R0 _ Rl) as Zl. pose proof (sqrt_lt_R0 _ Rr) as Zr.
    pose proof (sqrt_sqrt (density l) ltac:(lra)) as Sl. pose proof (sqrt_sqrt (density r) ltac:(lra)) as Sr.
    set (zl := sqrt (density l)) in *. set (zr := sqrt (density r)) in *.
    rewrite <- Sl, <- Sr. clearbody zl zr. field. lra.
  Qed.
  Lemma havg_roe : havg gamma d l r = roeMean (enthalpy gamma d l) (enthalpy gamma d r) l r.
  Proof.
    unfold havg, enthalpy, roeMean. rewrite (t1_root gamma d l r Hl), (t2_root gamma d l r Hr).
    destruct Hl as (Rl & _), Hr as (Rr & _).
    pose proof (sqrt_lt_R0 _ Rl) as Zl. pose proof (sqrt_lt_R0 _ Rr) as Zr.
    set (X := energy l + pressure gamma d l). set (Y := energy r + pressure gamma d r). clearbody X Y.
    pose proof (sqrt_sqrt (density l) ltac:(lra)) as Sl. pose proof (sqrt_sqrt (density r) ltac:(lra)) as Sr.
    set (zl := sqrt (density l)) in *. set (zr := sqrt (density r)) in *.
    rewrite <- Sl, <- Sr. clearbody zl zr. field. lra.
  Qed.
  Lemma a1_roe : a1 gamma d l r = roeSound gamma d l r.
  Proof.
    unfold a1, roeSound. rewrite (a2_eq gamma d l r Hg Hl Hr), havg_roe. f_equal. f_equal. f_equal.
    unfold al. rewrite (dot_ext d _ _ (roeVelocity l r) (roeVelocity l r)); [reflexivity| |]; intros; apply avg_roe.
  Qed.
  Lemma un_roe : un d l r n = dot d (roeVelocity l r) n.
  Proof. apply dot_ext; intros; [apply avg_roe|reflexivity]. Qed.

  (** Roe's condition on the average: the jump of the pressure is linear in the jump of the state *)
  Lemma pressure_jump : b4 gamma d l r = pressure gamma d r - pressure gamma d l.
  Proof.
    unfold b4, al, dm, de. rewrite (avg_square d l r). unfold avg. rewrite !dot_lin.
    rewrite (dot_comm d (momentum r) (momentum l)).
    unfold pressure. rewrite (t1_root gamma d l r Hl), (t2_root gamma d l r Hr).
    destruct Hl as (Rl & _), Hr as (Rr & _).
    pose proof (sqrt_lt_R0 _ Rl) as Zl. pose proof (sqrt_lt_R0 _ Rr) as Zr.
    pose proof (sqrt_sqrt (density l)) as Sl. pose proof (sqrt_sqrt (density r)) as Sr.
    specialize (Sl ltac:(lra)). specialize (Sr ltac:(lra)).
    set (zl := sqrt (density l)) in *. set (zr := sqrt (density r)) in *.
    rewrite <- Sl, <- Sr.
    generalize (dot d (momentum l) (momentum l)) (dot d (momentum l) (momentum r)) (dot d (momentum r) (momentum r)).
    intros A B C. clearbody zl zr. field. lra.
  Qed.

  (** the jump of the flux *)
  Lemma mass_jump : un d l r n * dm l r + b5 d l r n = dot d (momentum r) n - dot d (momentum l) n.
  Proof. unfold b5. ring. Qed.

  Lemma un_eq : un d l r n = t1 l r * dot d (momentum l) n + t2 l r * dot d (momentum r) n.
  Proof. unfold un, avg. apply dot_lin. Qed.

  Lemma momentum_jump i : un d l r n * (momentum r i - momentum l i) + avg l r i * b5 d l r n =
    dot d (momentum r) n * momentum r i / density r - dot d (momentum l) n * momentum l i / density l.
  Proof.
    unfold b5. rewrite un_eq. unfold avg, dm. rewrite (t1_root gamma d l r Hl), (t2_root gamma d l r Hr).
    destruct Hl as (Rl & _), Hr as (Rr & _).
    pose proof (sqrt_lt_R0 _ Rl) as Zl. pose proof (sqrt_lt_R0 _ Rr) as Zr.
    pose proof (sqrt_sqrt (density l)) as Sl. pose proof (sqrt_sqrt (density r)) as Sr.
    specialize (Sl ltac:(lra)). specialize (Sr ltac:(lra)).
    set (zl := sqrt (density l)) in *. set (zr := sqrt (density r)) in *.
    rewrite <- Sl, <- Sr.
    generalize (dot d (momentum l) n) (dot d (momentum r) n) (momentum l i) (momentum r i).
    intros A B C D. clearbody zl zr. field. lra.
  Qed.

  Lemma energy_jump : un d l r n * de l r + havg gamma d l r * b5 d l r n
      + un d l r n * (pressure gamma d r - pressure gamma d l) =
    dot d (momentum r) n / density r * (energy r + pressure gamma d r)
    - dot d (momentum l) n / density l * (energy l + pressure gamma d l).
  Proof.
    unfold b5. rewrite un_eq. unfold havg, dm, de. rewrite (t1_root gamma d l r Hl), (t2_root gamma d l r Hr).
    destruct Hl as (Rl & _), Hr as (Rr & _).
    pose proof (sqrt_lt_R0 _ Rl) as Zl. pose proof (sqrt_lt_R0 _ Rr) as Zr.
    pose proof (sqrt_sqrt (density l)) as Sl. pose proof (sqrt_sqrt (density r)) as Sr.
    specialize (Sl ltac:(lra)). specialize (Sr ltac:(lra)).
    set (zl := sqrt (density l)) in *. set (zr := sqrt (density r)) in *.
    rewrite <- Sl, <- Sr.
    generalize (dot d (momentum l) n) (dot d (momentum r) n) (pressure gamma d l) (pressure gamma d r) (energy l) (energy r).
    intros A B C D E F. clearbody zl zr. field. lra.
  Qed.

  Lemma corrected_large x : epsilon <= x -> corrected x = x.
  Proof. intros H. unfold corrected. destruct (Rlt_dec x epsilon); [lra|reflexivity]. Qed.

  Lemma closed_upwind : epsilon <= un d l r n - a1 gamma d l r ->
    let c := closed gamma d l r n in let p := eulerPhysical gamma d l n in
    density c = 2 * density p /\ (forall i, momentum c i = 2 * momentum p i) /\ energy c = 2 * energy p.
  Proof.
    intros Hu. pose proof (a1_pos gamma d l r Hg Hl Hr) as A1. pose proof (a2_pos gamma d l r Hg Hl Hr) as A2.
    assert (He : 0 < epsilon) by (unfold epsilon; lra).
    assert (L1 : l1 gamma d l r n = un d l r n + a1 gamma d l r).
    { unfold l1. rewrite Rabs_pos_eq by lra. apply corrected_large. lra. }
    assert (L2 : l2 gamma d l r n = un d l r n - a1 gamma d l r).
    { unfold l2. rewrite Rabs_pos_eq by lra. apply corrected_large. lra. }
    assert (L3 : l3 d l r n = un d l r n).
    { unfold l3. rewrite Rabs_pos_eq by lra. apply corrected_large. lra. }
    assert (B3 : b3 gamma d l r n = 0) by (unfold b3; rewrite L1, L2, L3; lra).
    assert (B2 : b2 gamma d l r n = a1 gamma d l r) by (unfold b2; rewrite L1, L2; lra).
    assert (B6 : b6 gamma d l r n = b5 d l r n).
    { unfold b6. rewrite B3, B2. field. lra. }
    assert (B7 : b7 gamma d l r n = pressure gamma d r - pressure gamma d l).
    { unfold b7. rewrite B3, B2, pressure_jump. field. lra. }
    destruct Hl as (Rl & _), Hr as (Rr & _).
    cbv zeta. unfold closed, eulerPhysical. cbn [density momentum energy]. rewrite L3, B6, B7.
    split; [|split].
    - rewrite mass_jump. ring.
    - intros i. pose proof (momentum_jump i) as M.
      match goal with |- ?x = _ => replace x with
        (dot d (momentum l) n * momentum l i * (1 / density l) + dot d (momentum r) n * momentum r i * (1 / density r)
         + (pressure gamma d l + pressure gamma d r) * n i
         - ((un d l r n * (momentum r i - momentum l i) + avg l r i * b5 d l r n)
            + n i * (pressure gamma d r - pressure gamma d l))) by ring end.
      rewrite M. field. lra.
    - rewrite energy_jump. field. lra.
  Qed.
End Upwind.

(** * A solid wall *)
Section Wall.
  Variables (gamma : R) (d : nat) (s : state) (n : nat -> R).
  Hypothesis Hg : 1 < gamma.
  Hypothesis Hs : gas gamma d s.

  Lemma pressure_reversed : pressure gamma d (reversed s) = pressure gamma d s.
  Proof. unfold pressure, reversed. cbn [density momentum energy]. rewrite dot_opp_l, dot_opp_r, Ropp_involutive. reflexivity. Qed.
  Lemma gas_reversed : gas gamma d (reversed s).
  Proof. destruct Hs as (H & H'). split; [exact H|]. rewrite pressure_reversed. exact H'. Qed.
  Lemma avg_wall i : avg (reversed s) s i = 0.
  Proof. unfold avg, t1, t2, reversed. cbn [density momentum]. ring. Qed.
  Lemma closed_wall : let c := closed gamma d (reversed s) s n in density c = 0 /\ energy c = 0 /\
    forall i, momentum c i = 2 * (momentum s i / density s * dot d (momentum s) n + pressure gamma d s * n i)
      - (2 * (l3 d (reversed s) s n * momentum s i
              + n i * (l1 gamma d (reversed s) s n - l3 d (reversed s) s n) * dot d (momentum s) n)).
  Proof.
    assert (U : un d (reversed s) s n = 0).
    { apply sum_zero. intros i _. rewrite avg_wall. ring. }
    assert (Z : forall v, dot d (avg (reversed s) s) v = 0).
    { intros v. apply sum_zero. intros i _. rewrite avg_wall. ring. }
    assert (B4 : b4 gamma d (reversed s) s = 0).
    { unfold b4, dm, de. rewrite !Z. unfold reversed. cbn [density energy]. ring. }
    assert (L : l1 gamma d (reversed s) s n = l2 gamma d (reversed s) s n).
    { unfold l1, l2. rewrite U. f_equal.
      replace (0 - a1 gamma d (reversed s) s) with (- (0 + a1 gamma d (reversed s) s)) by ring.
      symmetry. apply Rabs_Ropp. }
    assert (B2 : b2 gamma d (reversed s) s n = 0) by (unfold b2; rewrite L; ring).
    assert (B6 : b6 gamma d (reversed s) s n = 0) by (unfold b6; rewrite B4, B2; ring).
    cbv zeta. unfold closed. cbn [density momentum energy]. rewrite B6, U, pressure_reversed.
    unfold b7, b3. rewrite B4, <- L. unfold b5. rewrite U. unfold dm, de.
    change (density (reversed s)) with (density s). change (energy (reversed s)) with (energy s).
    change (momentum (reversed s)) with (fun i => - momentum s i). rewrite !dot_opp_l.
    pose proof (a1_pos gamma d (reversed s) s Hg gas_reversed Hs) as A1. destruct Hs as (H & _).
    split; [ring|]. split; [ring|]. intros i. rewrite avg_wall. field. lra.
  Qed.
End Wall.
