(** From fluxes to integrands, and the Euler equations as a whole. *)
From Coq Require Import List Arith Reals Lia Lra.
From Verif Require Import Loop_model Loop_proofs Flux_model Flux_spec Flux_proofs FluxRoe_proofs.
Import ListNotations.
Local Open Scope R_scope.

(** * The normal of any length *)
Definition unitOf (d : nat) (n : nat -> R) (i : nat) : R := n i / length_of d n.
Definition halfScaled (c : R) (s : state) : state :=
  State (density s * / 2 * c) (fun i => momentum s i * / 2 * c) (energy s * / 2 * c).

Lemma eulerFlux_ok gamma d l r n : 1 < gamma -> gas gamma d l -> gas gamma d r -> 0 < length_of d n ->
  eulerFlux gamma d (euler d l) (euler d r) (vec d n)
  = Some (euler d (halfScaled (length_of d n) (closed gamma d l r (unitOf d n)))).
Proof.
  intros Hg Hl Hr Hn. unfold eulerFlux.
  rewrite (accumulate_ok _ d _ (fun i => n i * n i)).
  2: { intros i Hi. rewrite get_vec by exact Hi. reflexivity. }
  cbn [bind]. rewrite Rplus_0_l. change (sum d (fun i => n i * n i)) with (dot d n n).
  rewrite root_ok by apply dot_square. cbn [bind]. change (sqrt (dot d n n)) with (length_of d n).
  unfold divide. rewrite vec_length. rewrite (collect_ok d _ (unitOf d n)).
  2: { intros i Hi. rewrite get_vec by exact Hi. cbn [bind]. apply div_ok. lra. }
  cbn [bind]. change (map (unitOf d n) (seq 0 d)) with (vec d (unitOf d n)).
  rewrite (roeTwice_ok gamma d l r _ Hg Hl Hr). cbn [bind]. rewrite !scale_euler. reflexivity.
Qed.

Lemma inviscidFlux_ok gamma d l r n : 1 < gamma -> gas gamma d l -> gas gamma d r ->
  inviscidFlux gamma d (euler d l) (euler d r) (vec d n)
  = Some (euler d (halfScaled 1 (closed gamma d l r n))).
Proof.
  intros Hg Hl Hr. unfold inviscidFlux. rewrite (roeTwice_ok gamma d l r _ Hg Hl Hr). cbn [bind].
  rewrite scale_euler. f_equal. apply euler_ext; cbn [density momentum energy halfScaled]; intros; ring.
Qed.

Lemma length_opposite d n : length_of d (opposite n) = length_of d n.
Proof. unfold length_of, opposite. rewrite dot_opp_l, dot_opp_r, Ropp_involutive. reflexivity. Qed.
Lemma dot_unit d u n : dot d u (unitOf d n) = / length_of d n * dot d u n.
Proof. rewrite <- dot_scale_r. apply dot_ext; intros; [reflexivity|]. unfold unitOf, Rdiv. ring. Qed.

Lemma physical_unit gamma d s n : 0 < length_of d n ->
  let p := eulerPhysical gamma d s (unitOf d n) in let q := eulerPhysical gamma d s n in
  density p * length_of d n = density q /\ (forall i, momentum p i * length_of d n = momentum q i) /\
  energy p * length_of d n = energy q.
Proof.
  intros Hn. cbv zeta. unfold eulerPhysical. cbn [density momentum energy]. rewrite dot_unit.
  assert (K : / length_of d n * length_of d n = 1) by (apply Rinv_l; lra).
  split; [|split].
  - rewrite Rmult_assoc, (Rmult_comm _ (length_of d n)), <- Rmult_assoc, K. ring.
  - intros i. unfold unitOf.
    match goal with |- ?x = ?y => replace x with (momentum s i / density s * (/ length_of d n * length_of d n * dot d (momentum s) n)
       + pressure gamma d s * (n i * (/ length_of d n * length_of d n))) by (unfold Rdiv; ring) end.
    rewrite K. ring.
  - match goal with |- ?x = ?y => replace x with ((energy s + pressure gamma d s) / density s
       * (/ length_of d n * length_of d n * dot d (momentum s) n)) by ring end.
    rewrite K. ring.
Qed.

(** a flux that is twice that of a state for the unit normal *)
Lemma half_physical gamma d c s n : 0 < length_of d n ->
  (let p := eulerPhysical gamma d s (unitOf d n) in
   density c = 2 * density p /\ (forall i, momentum c i = 2 * momentum p i) /\ energy c = 2 * energy p) ->
  euler d (halfScaled (length_of d n) c) = euler d (eulerPhysical gamma d s n).
Proof.
  intros Hn H. cbv zeta in H. destruct H as (H1 & H2 & H3).
  destruct (physical_unit gamma d s n Hn) as (P1 & P2 & P3).
  apply euler_ext; unfold halfScaled; cbn [density momentum energy].
  - rewrite <- P1, H1. field.
  - intros i _. rewrite <- P2, H2. field.
  - rewrite <- P3, H3. field.
Qed.
Lemma half_physical_one gamma d c s n :
  (let p := eulerPhysical gamma d s n in
   density c = 2 * density p /\ (forall i, momentum c i = 2 * momentum p i) /\ energy c = 2 * energy p) ->
  euler d (halfScaled 1 c) = euler d (eulerPhysical gamma d s n).
Proof.
  intros H. cbv zeta in H. destruct H as (H1 & H2 & H3).
  apply euler_ext; unfold halfScaled; cbn [density momentum energy].
  - rewrite H1. field.
  - intros i _. rewrite H2. field.
  - rewrite H3. field.
Qed.

Lemma unit_opposite d n i : unitOf d (opposite n) i = opposite (unitOf d n) i.
Proof. unfold unitOf. rewrite length_opposite. unfold opposite, Rdiv. ring. Qed.

Lemma closed_ext gamma d l r n n' : (forall i, n i = n' i) ->
  density (closed gamma d l r n) = density (closed gamma d l r n') /\
  (forall i, momentum (closed gamma d l r n) i = momentum (closed gamma d l r n') i) /\
  energy (closed gamma d l r n) = energy (closed gamma d l r n').
Proof.
  intros H. assert (D : forall u, dot d u n = dot d u n') by (intros; apply dot_ext; auto).
  assert (U : un d l r n = un d l r n') by apply D.
  assert (L1 : l1 gamma d l r n = l1 gamma d l r n') by (unfold l1; rewrite U; reflexivity).
  assert (L2 : l2 gamma d l r n = l2 gamma d l r n') by (unfold l2; rewrite U; reflexivity).
  assert (L3 : l3 d l r n = l3 d l r n') by (unfold l3; rewrite U; reflexivity).
  assert (B2 : b2 gamma d l r n = b2 gamma d l r n') by (unfold b2; rewrite L1, L2; reflexivity).
  assert (B3 : b3 gamma d l r n = b3 gamma d l r n') by (unfold b3; rewrite L1, L2, L3; reflexivity).
  assert (B5 : b5 d l r n = b5 d l r n') by (unfold b5; rewrite U, !D; reflexivity).
  assert (B6 : b6 gamma d l r n = b6 gamma d l r n') by (unfold b6; rewrite B2, B3, B5; reflexivity).
  assert (B7 : b7 gamma d l r n = b7 gamma d l r n') by (unfold b7; rewrite B2, B3, B5; reflexivity).
  unfold closed. cbn [density momentum energy]. rewrite !D, L3, B6, B7, U. split; [reflexivity|].
  split; [|reflexivity]. intros i. rewrite H. reflexivity.
Qed.

Lemma half_opposite gamma d l r n :
  euler d (halfScaled (length_of d (opposite n)) (closed gamma d r l (unitOf d (opposite n))))
  = neg (euler d (halfScaled (length_of d n) (closed gamma d l r (unitOf d n)))).
Proof.
  rewrite length_opposite, neg_euler.
  destruct (closed_ext gamma d r l (unitOf d (opposite n)) (opposite (unitOf d n)) (unit_opposite d n)) as (E1 & E2 & E3).
  destruct (closed_swap gamma d l r (unitOf d n)) as (S1 & S2 & S3).
  apply euler_ext; unfold halfScaled; cbn [density momentum energy].
  - rewrite E1, S1. ring.
  - intros i _. rewrite E2, S2. ring.
  - rewrite E3, S3. ring.
Qed.
Lemma half_opposite_one gamma d l r n :
  euler d (halfScaled 1 (closed gamma d r l (opposite n))) = neg (euler d (halfScaled 1 (closed gamma d l r n))).
Proof.
  rewrite neg_euler. destruct (closed_swap gamma d l r n) as (S1 & S2 & S3).
  apply euler_ext; unfold halfScaled; cbn [density momentum energy].
  - rewrite S1. ring.
  - intros i _. rewrite S2. ring.
  - rewrite S3. ring.
Qed.

(** * Integrands *)
Lemma index_inj nB i j i' j' : (i < nB)%nat -> (i' < nB)%nat -> (nB * j + i = nB * j' + i')%nat -> i = i' /\ j = j'.
Proof.
  intros Hi Hi' E. assert (j = j').
  { destruct (lt_eq_lt_dec j j') as [[H|H]|H]; [|exact H|]; exfalso; nia. }
  subst. split; [lia|reflexivity].
Qed.
Lemma index_lt nB nV i j : (i < nB)%nat -> (j < nV)%nat -> (nB * j + i < nV * nB)%nat.
Proof. intros. nia. Qed.

Lemma nth_write (v v' : list R) i x : write v i x = Some v' ->
  forall j, nth j v' 0 = if (j =? i)%nat then x else nth j v 0.
Proof.
  intros H j. destruct (write_inv v i x v' H) as (Hi & HL & HN). specialize (HN j).
  destruct (Nat.eqb_spec j i) as [->|Hj].
  - apply nth_error_nth. exact HN.
  - destruct (lt_dec j (length v)) as [Hl|Hl].
    + rewrite (nth_error_nth' v 0 Hl) in HN. apply nth_error_nth. exact HN.
    + rewrite !nth_overflow by lia. reflexivity.
Qed.

Lemma get_nth (v : list R) i : (i < length v)%nat -> get v i = Some (nth i v 0).
Proof. intros H. apply nth_error_nth'. exact H. Qed.

Lemma testWith_ok nV flux c phi : (nV <= length flux)%nat ->
  exists v, testWith nV flux c phi = Some v /\ length v = (nV * length phi)%nat /\
    forall iV iB, (iV < nV)%nat -> (iB < length phi)%nat ->
      entry v (length phi) iV iB = c * nth iV flux 0 * nth iB phi 0.
Proof.
  intros HF. unfold testWith. cbv zeta. set (nB := length phi).
  destruct (for_loop_inv (fun k (v : list R) => length v = (nV * nB)%nat /\
    forall iV iB, (iV < nV)%nat -> (iB < k)%nat -> (iB < nB)%nat -> entry v nB iV iB = c * nth iV flux 0 * nth iB phi 0)
    (fun iB v => for_loop nV (fun iV v => bind (get flux iV) (fun f => bind (get phi iB) (fun p =>
      write v (singleIndex nB iB iV) (c * f * p)))) v) nB (repeat 0 (nV * nB))) as (v & E & HL & HV).
  - split; [apply repeat_length|]. intros. lia.
  - intros k v Hk (HL & HV).
    destruct (for_loop_inv (fun j (w : list R) => length w = (nV * nB)%nat /\
      (forall iV iB, (iV < nV)%nat -> (iB < k)%nat -> (iB < nB)%nat -> entry w nB iV iB = c * nth iV flux 0 * nth iB phi 0) /\
      (forall iV, (iV < j)%nat -> (iV < nV)%nat -> entry w nB iV k = c * nth iV flux 0 * nth k phi 0))
      (fun iV v => bind (get flux iV) (fun f => bind (get phi k) (fun p =>
        write v (singleIndex nB k iV) (c * f * p)))) nV v) as (w & E & HL' & HW & HJ).
    + split; [exact HL|]. split; [exact HV|]. intros. lia.
    + intros j w Hj (HL' & HW & HJ).
      rewrite (get_nth flux) by lia. rewrite (get_nth phi) by exact Hk. cbn [bind].
      destruct (write_ok w (singleIndex nB k j) (c * nth j flux 0 * nth k phi 0)) as (w' & Ew & HL'' & _).
      { rewrite HL'. apply index_lt; assumption. }
      exists w'. split; [exact Ew|]. split; [lia|].
      pose proof (nth_write _ _ _ _ Ew) as N. split.
      * intros iV iB H1 H2 H3. unfold entry. rewrite N. unfold singleIndex.
        destruct (Nat.eqb_spec (nB * iV + iB) (nB * j + k)) as [Ei|Ei].
        -- destruct (index_inj nB iB iV k j H3 Hk Ei) as (-> & ->). reflexivity.
        -- apply HW; assumption.
      * intros iV H1 H2. unfold entry. rewrite N. unfold singleIndex.
        destruct (Nat.eqb_spec (nB * iV + k) (nB * j + k)) as [Ei|Ei].
        -- destruct (index_inj nB k iV k j Hk Hk Ei) as (_ & ->). reflexivity.
        -- apply HJ; [|exact H2]. destruct (Nat.eq_dec iV j) as [->|]; [congruence|lia].
    + exists w. split; [exact E|]. split; [exact HL'|]. intros iV iB H1 H2 H3.
      destruct (Nat.eq_dec iB k) as [->|]; [apply HJ; assumption|apply HW; try assumption; lia].
  - exists v. split; [exact E|]. split; [exact HL|]. intros iV iB H1 H2. apply HV; assumption.
Qed.

Lemma tested_ok nV (v : list R) c f phi w iV : (iV < nV)%nat ->
  (forall iB, (iB < length phi)%nat -> entry v (length phi) iV iB = c * f * nth iB phi 0) ->
  tested w phi v iV = c * f * value w phi.
Proof.
  intros Hi H. unfold tested, value. rewrite <- sum_scale. apply sum_ext. intros b Hb. rewrite H by exact Hb. ring.
Qed.

Lemma reconstruct_ok nV phi c : length c = (nV * length phi)%nat ->
  reconstruct nV phi c = Some (map (trace phi c) (seq 0 nV)).
Proof.
  intros HL. unfold reconstruct. cbv zeta. apply collect_ok. intros i Hi.
  rewrite (accumulate_ok 0 _ _ (fun b => nth b phi 0 * entry c (length phi) i b)).
  - rewrite Rplus_0_l. reflexivity.
  - intros b Hb. rewrite get_nth by exact Hb. cbn [bind].
    rewrite get_nth by (rewrite HL; apply index_lt; assumption). reflexivity.
Qed.

Lemma reconstruct_euler d phi c : length c = ((d + 2) * length phi)%nat ->
  reconstruct (d + 2) phi c = Some (euler d (traceState d phi c)).
Proof.
  intros HL. rewrite reconstruct_ok by exact HL. f_equal. unfold euler, vec, traceState. cbn [density momentum energy].
  replace (d + 2)%nat with (S (S d)) by lia. change (seq 0 (S (S d))) with (0%nat :: seq 1 (S d)).
  rewrite seq_S. cbn [map]. rewrite map_app. f_equal. cbn [map Nat.add].
  f_equal. rewrite <- seq_shift, map_map. reflexivity.
Qed.

Lemma nth_scale c v i : nth i (scale c v) 0 = nth i v 0 * c.
Proof.
  unfold scale. destruct (lt_dec i (length v)) as [H|H].
  - rewrite (nth_indep _ 0 (0 * c)) by (rewrite map_length; exact H). apply (map_nth (fun x => x * c)).
  - rewrite !nth_overflow by (try rewrite map_length; lia). ring.
Qed.
Lemma scale_length c v : length (scale c v) = length v.
Proof. apply map_length. Qed.

(** * Volume terms *)
Lemma add_at_ok v i x : (i < length v)%nat -> exists v', add_at v i x = Some v' /\ length v' = length v /\
  forall j, nth j v' 0 = if (j =? i)%nat then nth i v 0 + x else nth j v 0.
Proof.
  intros H. unfold add_at. rewrite get_nth by exact H. cbn [bind].
  destruct (write_ok v i (nth i v 0 + x) H) as (v' & E & HL & _).
  exists v'. split; [exact E|]. split; [exact HL|]. apply (nth_write _ _ _ _ E).
Qed.

Lemma add_entry_ok v nB nV iB iV x : length v = (nV * nB)%nat -> (iB < nB)%nat -> (iV < nV)%nat ->
  exists v', add_at v (singleIndex nB iB iV) x = Some v' /\ length v' = (nV * nB)%nat /\
    forall jV jB, (jB < nB)%nat ->
      entry v' nB jV jB = entry v nB jV jB + (if (jV =? iV)%nat then if (jB =? iB)%nat then x else 0 else 0).
Proof.
  intros HL HB HV. destruct (add_at_ok v (singleIndex nB iB iV) x) as (v' & E & HL' & N).
  { rewrite HL. apply index_lt; assumption. }
  exists v'. split; [exact E|]. split; [lia|]. intros jV jB Hj. unfold entry. rewrite N. unfold singleIndex.
  destruct (Nat.eqb_spec (nB * jV + jB) (nB * iV + iB)) as [Ei|Ei].
  - destruct (index_inj nB jB jV iB iV Hj HB Ei) as (-> & ->). rewrite !Nat.eqb_refl. reflexivity.
  - destruct (Nat.eqb_spec jV iV) as [->|]; [|ring]. destruct (Nat.eqb_spec jB iB) as [->|]; [congruence|ring].
Qed.

Section Volume.
  Variables (gamma : R) (d nB : nat) (s : state) (g : nat -> nat -> R).
  Let p := pressure gamma d s.
  Let term iB iD := momentum s iD * g iB iD * (1 / density s).

  Definition contribution (iB iD iV : nat) : R :=
    (if (iV =? 0)%nat then momentum s iD * g iB iD else 0)
    + (if (iV <=? d)%nat then if (iV =? 0)%nat then 0 else momentum s (iV - 1) * term iB iD else 0)
    + (if (iV =? d + 1)%nat then (energy s + p) * term iB iD else 0)
    + (if (iV =? iD + 1)%nat then p * g iB iD else 0).

  Lemma direction_ok iB iD v : (iB < nB)%nat -> (iD < d)%nat -> length v = ((d + 2) * nB)%nat ->
    exists v', (m <- get (euler d s) (iD + 1); x <- get (vec d (g iB)) iD;
        let integrandTerm := m * x * (1 / density s) in
        v <- add_at v (singleIndex nB iB 0) (m * x);
        v <- for_loop d (fun jD v => mj <- get (euler d s) (jD + 1);
               add_at v (singleIndex nB iB (jD + 1)) (mj * integrandTerm)) v;
        v <- add_at v (singleIndex nB iB (d + 1)) ((energy s + p) * integrandTerm);
        add_at v (singleIndex nB iB (iD + 1)) (p * x)) = Some v' /\
      length v' = ((d + 2) * nB)%nat /\
      forall jV jB, (jV < d + 2)%nat -> (jB < nB)%nat ->
        entry v' nB jV jB = entry v nB jV jB + (if (jB =? iB)%nat then contribution iB iD jV else 0).
  Proof.
    intros HB HD HL. rewrite get_euler_m, get_vec by exact HD. cbn [bind]. cbv zeta.
    change (momentum s iD * g iB iD * (1 / density s)) with (term iB iD).
    destruct (add_entry_ok v nB (d + 2) iB 0 (momentum s iD * g iB iD) HL HB ltac:(lia)) as (w1 & E1 & L1 & N1).
    rewrite E1. cbn [bind].
    destruct (for_loop_inv (fun k (w : list R) => length w = ((d + 2) * nB)%nat /\
      forall jV jB, (jB < nB)%nat -> entry w nB jV jB = entry w1 nB jV jB
        + (if (jV <=? k)%nat then if (jV =? 0)%nat then 0 else if (jB =? iB)%nat then momentum s (jV - 1) * term iB iD else 0
           else 0))
      (fun jD v => bind (get (euler d s) (jD + 1)) (fun mj =>
               add_at v (singleIndex nB iB (jD + 1)) (mj * term iB iD))) d w1) as (w2 & E2 & L2 & N2).
    - split; [exact L1|]. intros jV jB _. destruct (Nat.leb_spec jV 0).
      + replace jV with 0%nat by lia. cbn [Nat.eqb]. ring.
      + ring.
    - intros k w Hk (L & N). rewrite get_euler_m by exact Hk. cbn [bind].
      destruct (add_entry_ok w nB (d + 2) iB (k + 1) (momentum s k * term iB iD) L HB ltac:(lia)) as (w' & E' & L' & N').
      exists w'. split; [exact E'|]. split; [exact L'|]. intros jV jB Hj. rewrite N', N by exact Hj.
      destruct (Nat.eqb_spec jV (k + 1)) as [->|Hne].
      + destruct (Nat.leb_spec (k + 1) k) as [Hx|_]; [lia|]. destruct (Nat.leb_spec (k + 1) (S k)) as [_|Hx]; [|lia].
        destruct (Nat.eqb_spec (k + 1) 0) as [Hx|_]; [lia|]. replace (k + 1 - 1)%nat with k by lia.
        destruct (jB =? iB)%nat; ring.
      + destruct (Nat.leb_spec jV k) as [H1|H1], (Nat.leb_spec jV (S k)) as [H2|H2]; try lia; ring.
    - rewrite E2. cbn [bind].
      destruct (add_entry_ok w2 nB (d + 2) iB (d + 1) ((energy s + p) * term iB iD) L2 HB ltac:(lia)) as (w3 & E3 & L3 & N3).
      rewrite E3. cbn [bind].
      destruct (add_entry_ok w3 nB (d + 2) iB (iD + 1) (p * g iB iD) L3 HB ltac:(lia)) as (w4 & E4 & L4 & N4).
      exists w4. split; [exact E4|]. split; [exact L4|]. intros jV jB HjV Hj.
      rewrite N4, N3, N2, N1 by exact Hj. unfold contribution.
      destruct (jB =? iB)%nat, (jV =? 0)%nat, (jV <=? d)%nat, (jV =? d + 1)%nat, (jV =? iD + 1)%nat; ring.
  Qed.

  Hypothesis Hrho : density s <> 0.

  Lemma contribution_sum iB iV : (iV < d + 2)%nat ->
    sum d (fun iD => contribution iB iD iV) = nth iV (euler d (eulerPhysical gamma d s (g iB))) 0.
  Proof.
    intros HV. unfold contribution. destruct (Nat.eq_dec iV 0) as [->|H0].
    - cbn [euler nth eulerPhysical density]. apply sum_ext. intros i Hi. rewrite Nat.eqb_refl.
      destruct (Nat.leb_spec 0 d) as [_|Hx]; [|lia].
      destruct (Nat.eqb_spec 0 (d + 1)) as [Hx|_]; [lia|]. destruct (Nat.eqb_spec 0 (i + 1)) as [Hx|_]; [lia|]. ring.
    - destruct (Nat.eq_dec iV (d + 1)) as [->|H1].
      + rewrite (nth_error_nth _ _ 0 (get_euler_e d (eulerPhysical gamma d s (g iB)))).
        cbn [eulerPhysical energy]. unfold dot. rewrite <- sum_scale. apply sum_ext. intros i Hi.
        rewrite Nat.eqb_refl. destruct (Nat.eqb_spec (d + 1) 0) as [Hx|_]; [lia|].
        destruct (Nat.leb_spec (d + 1) d) as [Hx|_]; [lia|]. destruct (Nat.eqb_spec (d + 1) (i + 1)) as [Hx|_]; [lia|].
        unfold term, p. field. exact Hrho.
      + destruct iV as [|j]; [lia|]. replace (S j) with (j + 1)%nat in * by lia.
        assert (Hj : (j < d)%nat) by lia.
        rewrite (nth_error_nth _ _ 0 (get_euler_m d (eulerPhysical gamma d s (g iB)) j Hj)).
        cbn [eulerPhysical momentum]. unfold dot. rewrite <- sum_scale.
        transitivity (sum d (fun i => momentum s j / density s * (momentum s i * g iB i)
                              + (if (j + 1 =? i + 1)%nat then p * g iB i else 0))).
        * apply sum_ext. intros i Hi. destruct (Nat.eqb_spec (j + 1) 0) as [Hx|_]; [lia|].
          destruct (Nat.leb_spec (j + 1) d) as [_|Hx]; [|lia].
          destruct (Nat.eqb_spec (j + 1) (d + 1)) as [Hx|_]; [lia|]. replace (j + 1 - 1)%nat with j by lia.
          unfold term. destruct (j + 1 =? i + 1)%nat; field; exact Hrho.
        * rewrite sum_plus. f_equal. rewrite (sum_single d _ j Hj).
          -- rewrite Nat.eqb_refl. reflexivity.
          -- intros i Hi Hn. destruct (Nat.eqb_spec (j + 1) (i + 1)); [lia|reflexivity].
  Qed.

  Lemma volume_ok (gs : list (list R)) : gas gamma d s -> length gs = nB ->
    (forall iB, (iB < nB)%nat -> nth_error gs iB = Some (vec d (g iB))) ->
    exists v, eulerElement gamma d nB (euler d s) gs = Some v /\ length v = ((d + 2) * nB)%nat /\
      forall iV iB, (iV < d + 2)%nat -> (iB < nB)%nat ->
        entry v nB iV iB = nth iV (euler d (eulerPhysical gamma d s (g iB))) 0.
  Proof.
    intros (HR & HP) HG HN. unfold eulerElement. rewrite get_euler_0. cbn [bind]. rewrite div_ok by exact Hrho. cbn [bind].
    rewrite (accumulate_ok 0 d _ (fun i => momentum s i * momentum s i)).
    2: { intros i Hi. rewrite get_euler_m by exact Hi. reflexivity. }
    cbn [bind]. rewrite get_euler_e. cbn [bind]. cbv zeta. rewrite Rplus_0_l.
    change (sum d (fun i => momentum s i * momentum s i)) with (dot d (momentum s) (momentum s)).
    replace ((gamma - 1) * (energy s - / 2 * (1 / density s) * dot d (momentum s) (momentum s))) with p
      by (unfold p, pressure; field; exact Hrho).
    destruct (Rlt_dec 0 p) as [_|Hx]; [|exfalso; apply Hx; exact HP].
    match goal with |- context [for_loop nB ?b ?i] => destruct (for_loop_inv (fun k (v : list R) =>
      length v = ((d + 2) * nB)%nat /\ forall iV iB, (iV < d + 2)%nat -> (iB < nB)%nat ->
        entry v nB iV iB = if (iB <? k)%nat then nth iV (euler d (eulerPhysical gamma d s (g iB))) 0 else 0)
      b nB i) as (v & E & HL & HV) end.
    - split; [apply repeat_length|]. intros iV iB _ _. unfold entry. cbn [Nat.ltb Nat.leb]. apply nth_repeat.
    - intros k v Hk (HL & HV). rewrite (HN k Hk). cbn [bind].
      match goal with |- context [for_loop d ?b v] => destruct (for_loop_inv (fun j (w : list R) =>
        length w = ((d + 2) * nB)%nat /\ forall iV iB, (iV < d + 2)%nat -> (iB < nB)%nat ->
          entry w nB iV iB = entry v nB iV iB + if (iB =? k)%nat then sum j (fun iD => contribution k iD iV) else 0)
        b d v) as (w & E & HL' & HW) end.
      + split; [exact HL|]. intros. destruct (_ =? _)%nat; cbn [sum]; ring.
      + intros j w Hj (L & N). destruct (direction_ok k j w Hk Hj L) as (w' & E' & L' & N').
        exists w'. split; [exact E'|]. split; [exact L'|]. intros iV iB HV' HB. rewrite N', N by assumption.
        destruct (iB =? k)%nat; cbn [sum]; ring.
      + exists w. split; [exact E|]. split; [exact HL'|]. intros iV iB H1 H2. rewrite HW, HV by assumption.
        destruct (Nat.eqb_spec iB k) as [->|Hne].
        * destruct (Nat.ltb_spec k k) as [Hx|_]; [lia|]. destruct (Nat.ltb_spec k (S k)) as [_|Hx]; [|lia].
          rewrite contribution_sum by exact H1. ring.
        * destruct (Nat.ltb_spec iB k), (Nat.ltb_spec iB (S k)); try lia; ring.
    - exists v. split; [exact E|]. split; [exact HL|]. intros iV iB H1 H2. rewrite HV by assumption.
      destruct (Nat.ltb_spec iB nB); [reflexivity|lia].
  Qed.
End Volume.
