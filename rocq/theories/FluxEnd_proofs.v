(** Integrands on faces. *)
From Coq Require Import List Arith Reals Lia Lra.
From Verif Require Import Loop_model Loop_proofs Flux_model Flux_spec Flux_proofs FluxRoe_proofs FluxFace_proofs FluxShallow_proofs.
Import ListNotations.
Local Open Scope R_scope.

Lemma testWith_tested nV flux c phi : (nV <= length flux)%nat ->
  exists v, testWith nV flux c phi = Some v /\ length v = (nV * length phi)%nat /\
    forall iV, (iV < nV)%nat -> forall w, tested w phi v iV = c * nth iV flux 0 * value w phi.
Proof.
  intros H. destruct (testWith_ok nV flux c phi H) as (v & E & HL & HV).
  exists v. split; [exact E|]. split; [exact HL|]. intros iV Hi w. apply (tested_ok nV); [exact Hi|]. auto.
Qed.

Lemma euler_faces gamma d phiL phiR cL cR n : 1 < gamma -> 0 < length_of d n ->
  length cL = ((d + 2) * length phiL)%nat -> length cR = ((d + 2) * length phiR)%nat ->
  gas gamma d (traceState d phiL cL) -> gas gamma d (traceState d phiR cR) ->
  exists f vL vR,
    eulerFlux gamma d (euler d (traceState d phiL cL)) (euler d (traceState d phiR cR)) (vec d n) = Some f /\
    eulerFace gamma d LEFT phiL phiR cL cR (vec d n) = Some vL /\
    eulerFace gamma d RIGHT phiL phiR cL cR (vec d n) = Some vR /\
    length vL = length cL /\ length vR = length cR /\
    forall iV, (iV < d + 2)%nat -> forall w,
      tested w phiL vL iV = - nth iV f 0 * value w phiL /\ tested w phiR vR iV = nth iV f 0 * value w phiR.
Proof.
  intros Hg Hn HL HR Gl Gr. unfold eulerFace. cbv zeta.
  rewrite (reconstruct_euler d phiL cL HL). cbn [bind]. rewrite (reconstruct_euler d phiR cR HR). cbn [bind].
  rewrite (eulerFlux_ok gamma d _ _ n Hg Gl Gr Hn). cbn [bind].
  set (f := euler d _).
  assert (Hf : length f = (d + 2)%nat) by apply euler_length.
  destruct (testWith_tested (d + 2) f (-1) phiL ltac:(lia)) as (vL & EL & LL & TL).
  destruct (testWith_tested (d + 2) (negate f) (-1) phiR ltac:(unfold negate; rewrite scale_length; lia)) as (vR & ER & LR & TR).
  exists f, vL, vR. split; [reflexivity|]. split; [exact EL|]. split; [exact ER|]. split; [congruence|]. split; [congruence|].
  intros iV Hi w. rewrite TL, TR by exact Hi. unfold negate. rewrite nth_scale. split; ring.
Qed.

Lemma wallState_ok d s : wallState d (euler d s) = Some (euler d (reversed s)).
Proof.
  unfold wallState. rewrite get_euler_0. cbn [bind]. rewrite (collect_ok d _ (fun i => - momentum s i)).
  - cbn [bind]. rewrite get_euler_e. reflexivity.
  - intros i Hi. rewrite get_euler_m by exact Hi. reflexivity.
Qed.

Lemma eulerWallFlux_ok gamma d s n : 1 < gamma -> gas gamma d s -> 0 < length_of d n ->
  eulerWallFlux gamma d (euler d s) (vec d n)
  = Some (euler d (halfScaled (length_of d n) (closed gamma d (reversed s) s (unitOf d n)))).
Proof.
  intros Hg Hs Hn. unfold eulerWallFlux. rewrite wallState_ok. cbn [bind].
  apply eulerFlux_ok; try assumption. apply gas_reversed; assumption.
Qed.

Lemma euler_wall gamma d phi c n : 1 < gamma -> 0 < length_of d n ->
  length c = ((d + 2) * length phi)%nat -> gas gamma d (traceState d phi c) ->
  exists v, eulerWall gamma d phi c (vec d n) = Some v /\ length v = length c /\
    forall w, tested w phi v 0 = 0 /\ tested w phi v (d + 1) = 0.
Proof.
  intros Hg Hn HL Hs. unfold eulerWall. cbv zeta. rewrite (reconstruct_euler d phi c HL). cbn [bind].
  rewrite (eulerWallFlux_ok gamma d _ n Hg Hs Hn). cbn [bind]. set (f := euler d _).
  assert (Hf : length f = (d + 2)%nat) by apply euler_length.
  destruct (testWith_tested (d + 2) f (-1) phi ltac:(lia)) as (v & E & LV & TV).
  exists v. split; [exact E|]. split; [congruence|]. intros w. rewrite !TV by lia.
  destruct (closed_wall gamma d (traceState d phi c) (unitOf d n) Hg Hs) as (Z & Z' & _).
  unfold f. rewrite (nth_error_nth _ _ 0 (get_euler_0 _ _)), (nth_error_nth _ _ 0 (get_euler_e _ _)).
  cbn [halfScaled density energy]. rewrite Z, Z'. split; ring.
Qed.

Lemma corrected_pos x : 0 <= x -> 0 < corrected x.
Proof.
  intros H. unfold corrected. destruct (Rlt_dec x epsilon) as [Hl|Hl].
  - assert (0 < epsilon) by (unfold epsilon; lra). apply Rdiv_lt_0_compat; [|lra].
    apply Rplus_le_lt_0_compat; [apply Rle_0_sqr|apply Rmult_lt_0_compat; assumption].
  - assert (0 < epsilon) by (unfold epsilon; lra). lra.
Qed.

(** in one dimension: the momentum flux of the wall of the program and of a wall *)
Lemma wall_line gamma s : 1 < gamma -> gas gamma 1 s -> 0 < momentum s 0 ->
  exists f g, eulerWallFlux gamma 1 (euler 1 s) (vec 1 (fun _ => 1)) = Some (euler 1 f) /\
    eulerFlux gamma 1 (euler 1 s) (euler 1 (reversed s)) (vec 1 (fun _ => 1)) = Some (euler 1 g) /\
    momentum f 0 < momentum s 0 / density s * momentum s 0 + pressure gamma 1 s < momentum g 0.
Proof.
  intros Hg Hs Hm. pose proof (gas_reversed gamma 1 s Hs) as Hr.
  assert (L : length_of 1 (fun _ => 1) = 1) by (unfold length_of, dot; cbn [sum]; rewrite Rplus_0_l, Rmult_1_l; apply sqrt_1).
  assert (U : forall i, unitOf 1 (fun _ => 1) i = 1) by (intros; unfold unitOf; rewrite L; field).
  eexists _, _. split; [apply eulerWallFlux_ok; try assumption; rewrite L; lra|].
  split; [apply eulerFlux_ok; try assumption; rewrite L; lra|].
  rewrite L. unfold halfScaled. cbn [momentum].
  destruct (closed_ext gamma 1 (reversed s) s _ (fun _ => 1) U) as (_ & E & _).
  destruct (closed_ext gamma 1 s (reversed s) _ (fun _ => 1) U) as (_ & E' & _).
  rewrite E, E'. clear E E'.
  set (o := opposite (fun _ : nat => 1)).
  destruct (closed_swap gamma 1 (reversed s) s o) as (_ & S & _).
  destruct (closed_ext gamma 1 s (reversed s) (fun _ => 1) (opposite o)) as (_ & E & _).
  { intros i. unfold o, opposite. ring. }
  rewrite E, S. clear E S.
  destruct (closed_wall gamma 1 s (fun _ => 1) Hg Hs) as (_ & _ & W).
  destruct (closed_wall gamma 1 s o Hg Hs) as (_ & _ & W').
  rewrite W, W'. clear W W'. unfold o, opposite, dot. cbn [sum].
  assert (P : forall n, 0 < l1 gamma 1 (reversed s) s n) by (intros; apply corrected_pos, Rabs_pos).
  pose proof (P (fun _ => 1)) as P1. pose proof (P (fun _ => -1)) as P2.
  replace (fun _ : nat => - (1)) with (fun _ : nat => -1) by reflexivity.
  set (x := l1 gamma 1 (reversed s) s (fun _ => 1)) in *. set (y := l1 gamma 1 (reversed s) s (fun _ => -1)) in *.
  assert (0 < x * momentum s 0) by (apply Rmult_lt_0_compat; assumption).
  assert (0 < y * momentum s 0) by (apply Rmult_lt_0_compat; assumption).
  unfold Rdiv. split; lra.
Qed.

Lemma fluxFunction_ok gamma d s n : density s <> 0 ->
  fluxFunction d (euler d s) (pressure gamma d s) (vec d n) = Some (euler d (eulerPhysical gamma d s n)).
Proof.
  intros H. unfold fluxFunction. rewrite get_euler_0. cbn [bind]. rewrite div_ok by exact H. cbn [bind].
  rewrite get_euler_e. cbn [bind].
  rewrite (accumulate_ok _ d _ (fun i => momentum s i * n i)).
  2: { intros i Hi. rewrite get_vec, get_euler_m by exact Hi. reflexivity. }
  cbn [bind]. rewrite Rplus_0_l.
  rewrite (collect_ok d _ (momentum (eulerPhysical gamma d s n))).
  - cbn [bind]. rewrite (accumulate_ok _ d _ (fun i => (energy s + pressure gamma d s) / density s * (momentum s i * n i))).
    + cbn [bind]. rewrite Rplus_0_l, sum_scale. reflexivity.
    + intros i Hi. rewrite get_vec, get_euler_m by exact Hi. cbn [bind]. f_equal. field. exact H.
  - intros j Hj.
    rewrite (accumulate_ok _ d _ (fun i => momentum s j / density s * (momentum s i * n i)
               + (if (j =? i)%nat then pressure gamma d s * n i else 0))).
    + rewrite Rplus_0_l, sum_plus, sum_scale. f_equal. cbn [eulerPhysical momentum]. unfold dot. f_equal.
      rewrite (sum_single d _ j Hj); [rewrite Nat.eqb_refl; reflexivity|].
      intros i _ Hi. destruct (Nat.eqb_spec j i); [congruence|reflexivity].
    + intros i Hi. rewrite !get_euler_m, get_vec by assumption. cbn [bind]. f_equal.
      destruct (j =? i)%nat; field; exact H.
Qed.

Lemma inviscid_sides gamma d phiL phiR l r n : 1 < gamma -> gas gamma d l -> gas gamma d r ->
  exists f vL vR,
    inviscidFlux gamma d (euler d l) (euler d r) (vec d n) = Some f /\
    inviscidFace gamma d phiL (euler d l) (euler d r) (vec d n) = Some vL /\
    inviscidFace gamma d phiR (euler d r) (euler d l) (vec d (opposite n)) = Some vR /\
    length vL = ((d + 2) * length phiL)%nat /\ length vR = ((d + 2) * length phiR)%nat /\
    forall iV, (iV < d + 2)%nat -> forall w,
      tested w phiL vL iV = - nth iV f 0 * value w phiL /\ tested w phiR vR iV = nth iV f 0 * value w phiR.
Proof.
  intros Hg Hl Hr. unfold inviscidFace. cbv zeta.
  rewrite (inviscidFlux_ok gamma d l r n Hg Hl Hr), (inviscidFlux_ok gamma d r l (opposite n) Hg Hr Hl).
  rewrite half_opposite_one. cbn [bind]. set (f := euler d _).
  assert (Hf : length f = (d + 2)%nat) by apply euler_length.
  destruct (testWith_tested (d + 2) f 1 phiL ltac:(lia)) as (vL & EL & LL & TL).
  destruct (testWith_tested (d + 2) (neg f) 1 phiR ltac:(unfold neg; rewrite map_length; lia)) as (vR & ER & LR & TR).
  rewrite EL, ER. cbn [bind]. exists f, (negate vL), (negate vR).
  split; [reflexivity|]. split; [reflexivity|]. split; [reflexivity|]. unfold negate. rewrite !scale_length.
  split; [exact LL|]. split; [exact LR|].
  assert (T : forall w phi v iV, tested w phi (scale (-1) v) iV = - tested w phi v iV).
  { intros. unfold tested. rewrite <- sum_opp. apply sum_ext. intros b _. unfold entry. rewrite nth_scale. ring. }
  intros iV Hi w. rewrite !T, TL, TR by exact Hi.
  replace (nth iV (neg f) 0) with (- nth iV f 0).
  2: { unfold neg. rewrite <- (map_nth Ropp f 0). apply nth_indep. rewrite map_length. lia. }
  split; ring.
Qed.

Lemma inviscid_pair gamma d phiL phiR l r n : 1 < gamma -> gas gamma d l -> gas gamma d r ->
  length phiR = length phiL ->
  exists f vL vR,
    inviscidFlux gamma d (euler d l) (euler d r) (vec d n) = Some f /\
    inviscidFaces gamma d phiL phiR (euler d l) (euler d r) (vec d n) = Some (vL, vR) /\
    length vL = ((d + 2) * length phiL)%nat /\ length vR = ((d + 2) * length phiR)%nat /\
    forall iV, (iV < d + 2)%nat -> forall w,
      tested w phiL vL iV = - nth iV f 0 * value w phiL /\ tested w phiR vR iV = nth iV f 0 * value w phiR.
Proof.
  intros Hg Hl Hr HB. unfold inviscidFaces. cbv zeta. rewrite (inviscidFlux_ok gamma d l r n Hg Hl Hr). cbn [bind].
  set (f := euler d _). assert (Hf : length f = (d + 2)%nat) by apply euler_length. rewrite HB.
  set (nB := length phiL) in *. set (nV := (d + 2)%nat) in *.
  pose (good := fun (k : nat) (st : list R * list R) =>
    length (fst st) = (nV * nB)%nat /\ length (snd st) = (nV * nB)%nat /\
    forall iV iB, (iV < nV)%nat -> (iB < k)%nat -> (iB < nB)%nat ->
      entry (fst st) nB iV iB = - nth iV f 0 * nth iB phiL 0 /\ entry (snd st) nB iV iB = nth iV f 0 * nth iB phiR 0).
  match goal with |- context [for_loop nB ?b ?i] => destruct (for_loop_inv good b nB i) as ((vL & vR) & E & LL & LR & HV) end.
  - split; [apply repeat_length|]. split; [apply repeat_length|]. intros. lia.
  - intros k (v & v') Hk (H1 & H2 & H3). cbn [fst snd] in *.
    match goal with |- context [for_loop nV ?b (v, v')] =>
      destruct (for_loop_inv (fun j (st : list R * list R) => good k st /\
        forall iV, (iV < j)%nat -> (iV < nV)%nat ->
          entry (fst st) nB iV k = - nth iV f 0 * nth k phiL 0 /\ entry (snd st) nB iV k = nth iV f 0 * nth k phiR 0)
        b nV (v, v')) as ((w & w') & E & (H1' & H2' & H3') & HJ) end.
    + split; [split; [exact H1|split; [exact H2|exact H3]]|]. intros. lia.
    + intros j (u & u') Hj ((U1 & U2 & U3) & UJ). cbn [fst snd] in *.
      rewrite (get_nth f) by lia. rewrite (get_nth phiL) by exact Hk. rewrite (get_nth phiR) by lia. cbn [bind].
      destruct (write_ok u (singleIndex nB k j) (- nth j f 0 * nth k phiL 0)) as (x & Ex & Lx & _).
      { rewrite U1. apply index_lt; assumption. }
      destruct (write_ok u' (singleIndex nB k j) (nth j f 0 * nth k phiR 0)) as (x' & Ex' & Lx' & _).
      { rewrite U2. apply index_lt; assumption. }
      rewrite Ex. cbn [bind]. rewrite Ex'. cbn [bind]. exists (x, x'). split; [reflexivity|]. cbn [fst snd].
      pose proof (nth_write _ _ _ _ Ex) as N. pose proof (nth_write _ _ _ _ Ex') as N'.
      split; [split; [cbn [fst]; congruence|split; [cbn [snd]; congruence|]]|].
      * intros iV iB K1 K2 K3. cbn [fst snd]. unfold entry. rewrite N, N'. unfold singleIndex.
        destruct (Nat.eqb_spec (nB * iV + iB) (nB * j + k)) as [Ei|Ei].
        -- destruct (index_inj nB iB iV k j K3 Hk Ei) as (-> & ->). split; reflexivity.
        -- apply U3; assumption.
      * intros iV K1 K2. cbn [fst snd]. unfold entry. rewrite N, N'. unfold singleIndex.
        destruct (Nat.eqb_spec (nB * iV + k) (nB * j + k)) as [Ei|Ei].
        -- destruct (index_inj nB k iV k j Hk Hk Ei) as (_ & ->). split; reflexivity.
        -- apply UJ; [|exact K2]. destruct (Nat.eq_dec iV j) as [->|]; [congruence|lia].
    + exists (w, w'). split; [exact E|]. split; [exact H1'|]. split; [exact H2'|]. intros iV iB K1 K2 K3.
      destruct (Nat.eq_dec iB k) as [->|]; [apply HJ; assumption|apply H3'; try assumption; lia].
  - cbn [fst snd] in *. exists f, vL, vR. split; [reflexivity|]. split; [exact E|]. split; [exact LL|]. split; [exact LR|].
    intros iV Hi w. split.
    + rewrite (tested_ok nV vL (-1) (nth iV f 0) phiL w iV Hi); [ring|].
      intros iB Hb. transitivity (- nth iV f 0 * nth iB phiL 0); [exact (proj1 (HV iV iB Hi Hb Hb))|ring].
    + rewrite (tested_ok nV vR 1 (nth iV f 0) phiR w iV Hi); [ring|].
      rewrite HB. intros iB Hb. transitivity (nth iV f 0 * nth iB phiR 0); [exact (proj2 (HV iV iB Hi Hb Hb))|ring].
Qed.

(** shallow flow *)
Section ShallowFaces.
  Variables dryLimit epsilon cosine alpha : R.
  Hypothesis Hdry : 0 <= dryLimit.
  Hypothesis Hg : 0 < epsilon * cosine.

  Lemma reconstruct_shallow2 phi c : length c = (3 * length phi)%nat ->
    reconstruct 3 phi c = Some (shallow2 (traceState 2 phi c)).
  Proof. intros H. rewrite reconstruct_ok by exact H. reflexivity. Qed.
  Lemma reconstruct_shallow1 phi c : length c = (2 * length phi)%nat ->
    reconstruct 2 phi c = Some (shallow1 (traceState 1 phi c)).
  Proof. intros H. rewrite reconstruct_ok by exact H. reflexivity. Qed.

  Lemma hllc2D_length l r nx ny f : flow l -> flow r ->
    hllc2D dryLimit epsilon cosine (shallow2 l) (shallow2 r) [nx; ny] = Some f -> length f = 3%nat.
  Proof.
    intros (Hl & _) (Hr & _). rewrite (hllc2D_ok dryLimit epsilon cosine Hdry Hg) by assumption.
    rewrite between_ok. intros H. injection H as <-. apply vec_length.
  Qed.
  Lemma hllc1D_length l r n f : flow l -> flow r ->
    hllc1D dryLimit epsilon cosine (flux1D dryLimit epsilon cosine alpha) (shallow1 l) (shallow1 r) n = Some f ->
    length f = 2%nat.
  Proof.
    intros (Hl & _) (Hr & _). rewrite (hllc1D_ok dryLimit epsilon cosine alpha Hdry Hg) by assumption.
    rewrite between_ok. intros H. injection H as <-. apply vec_length.
  Qed.

  Lemma shallow_faces phiL phiR cL cR nx ny :
    length cL = (3 * length phiL)%nat -> length cR = (3 * length phiR)%nat ->
    flow (traceState 2 phiL cL) -> flow (traceState 2 phiR cR) ->
    exists f vL vR,
      hllc2D dryLimit epsilon cosine (shallow2 (traceState 2 phiL cL)) (shallow2 (traceState 2 phiR cR)) [nx; ny] = Some f /\
      savageHutterFace2D dryLimit epsilon cosine LEFT phiL phiR cL cR [nx; ny] = Some vL /\
      savageHutterFace2D dryLimit epsilon cosine RIGHT phiL phiR cL cR [nx; ny] = Some vR /\
      length vL = length cL /\ length vR = length cR /\
      forall iV, (iV < 3)%nat -> forall w,
        tested w phiL vL iV = - nth iV f 0 * value w phiL /\ tested w phiR vR iV = nth iV f 0 * value w phiR.
  Proof.
    intros HL HR Fl Fr. destruct (hllc2D_swap dryLimit epsilon cosine Hdry Hg _ _ nx ny Fl Fr) as (f & Ef & _).
    pose proof (hllc2D_length _ _ _ _ _ Fl Fr Ef) as Hf.
    unfold savageHutterFace2D. rewrite (reconstruct_shallow2 phiL cL HL). cbn [bind].
    rewrite (reconstruct_shallow2 phiR cR HR). cbn [bind]. rewrite Ef. cbn [bind].
    destruct (testWith_tested 3 f (-1) phiL ltac:(lia)) as (vL & EL & LL & TL).
    destruct (testWith_tested 3 (scale (-1) f) (-1) phiR ltac:(rewrite scale_length; lia)) as (vR & ER & LR & TR).
    exists f, vL, vR. split; [reflexivity|]. split; [exact EL|]. split; [exact ER|]. split; [congruence|]. split; [congruence|].
    intros iV Hi w. rewrite TL, TR by exact Hi. rewrite nth_scale. split; ring.
  Qed.

  Lemma shallow_pair phiL phiR cL cR nx ny :
    length cL = (3 * length phiL)%nat -> length cR = (3 * length phiR)%nat ->
    flow (traceState 2 phiL cL) -> flow (traceState 2 phiR cR) ->
    exists f vL vR,
      hllc2D dryLimit epsilon cosine (shallow2 (traceState 2 phiL cL)) (shallow2 (traceState 2 phiR cR)) [nx; ny] = Some f /\
      savageHutterFaces2D dryLimit epsilon cosine phiL phiR cL cR [nx; ny] = Some (vL, vR) /\
      length vL = length cL /\ length vR = length cR /\
      forall iV, (iV < 3)%nat -> forall w,
        tested w phiL vL iV = - nth iV f 0 * value w phiL /\ tested w phiR vR iV = nth iV f 0 * value w phiR.
  Proof.
    intros HL HR Fl Fr. destruct (hllc2D_swap dryLimit epsilon cosine Hdry Hg _ _ nx ny Fl Fr) as (f & Ef & _).
    pose proof (hllc2D_length _ _ _ _ _ Fl Fr Ef) as Hf.
    unfold savageHutterFaces2D. rewrite (reconstruct_shallow2 phiL cL HL). cbn [bind].
    rewrite (reconstruct_shallow2 phiR cR HR). cbn [bind]. rewrite Ef. cbn [bind].
    destruct (testWith_tested 3 f (-1) phiL ltac:(lia)) as (vL & EL & LL & TL).
    destruct (testWith_tested 3 f 1 phiR ltac:(lia)) as (vR & ER & LR & TR).
    rewrite EL, ER. cbn [bind].
    exists f, vL, vR. split; [reflexivity|]. split; [reflexivity|]. split; [congruence|]. split; [congruence|].
    intros iV Hi w. rewrite TL, TR by exact Hi. split; ring.
  Qed.

  Lemma tested_times w phi v iV c : tested w (map (Rmult c) phi) v iV = tested w phi v iV.
  Proof. unfold tested, entry. rewrite map_length. reflexivity. Qed.
  Lemma value_times w phi c : value w (map (fun p => c * p) phi) = c * value w phi.
  Proof.
    unfold value. rewrite map_length, <- sum_scale. apply sum_ext. intros b Hb.
    rewrite (nth_indep _ 0 (c * 0)) by (rewrite map_length; exact Hb). rewrite (map_nth (fun p => c * p)). ring.
  Qed.

  Lemma line_faces phiL phiR cL cR n :
    length cL = (2 * length phiL)%nat -> length cR = (2 * length phiR)%nat ->
    flow (traceState 1 phiL cL) -> flow (traceState 1 phiR cR) ->
    exists f vL vR,
      hllc1D dryLimit epsilon cosine (physicalFlux1D dryLimit epsilon cosine alpha)
        (shallow1 (traceState 1 phiL cL)) (shallow1 (traceState 1 phiR cR)) n = Some f /\
      savageHutterFace1D dryLimit epsilon cosine alpha LEFT phiL phiR cL cR n = Some vL /\
      savageHutterFace1D dryLimit epsilon cosine alpha RIGHT phiL phiR cL cR n = Some vR /\
      length vL = length cL /\ length vR = length cR /\
      forall iV, (iV < 2)%nat -> forall w,
        tested w phiL vL iV = - (n * nth iV f 0 * value w phiL) /\ tested w phiR vR iV = n * nth iV f 0 * value w phiR.
  Proof.
    intros HL HR Fl Fr. destruct (hllc1D_swap dryLimit epsilon cosine alpha Hdry Hg _ _ n Fl Fr) as (f & Ef & _).
    pose proof (hllc1D_length _ _ _ _ Fl Fr Ef) as Hf.
    unfold savageHutterFace1D. rewrite (reconstruct_shallow1 phiL cL HL). cbn [bind].
    rewrite (reconstruct_shallow1 phiR cR HR). cbn [bind]. unfold flux1D in Ef. rewrite Ef. cbn [bind].
    destruct (testWith_tested 2 f (-1) (map (fun p => n * p) phiL) ltac:(lia)) as (vL & EL & LL & TL).
    destruct (testWith_tested 2 f (-1) (map (fun p => - n * p) phiR) ltac:(lia)) as (vR & ER & LR & TR).
    rewrite map_length in LL, LR.
    exists f, vL, vR. split; [reflexivity|]. split; [exact EL|]. split; [exact ER|]. split; [congruence|]. split; [congruence|].
    intros iV Hi w. specialize (TL iV Hi w). specialize (TR iV Hi w). rewrite value_times in TL, TR.
    unfold tested in TL, TR |- *. rewrite map_length in TL, TR. rewrite TL, TR. split; ring.
  Qed.
End ShallowFaces.

(** supersonic flow, with the averages of the specification *)
Lemma upwind_left gamma d l r n : 1 < gamma -> gas gamma d l -> gas gamma d r -> 0 < length_of d n ->
  length_of d n * (roeSound gamma d l r + / 100) <= dot d (roeVelocity l r) n ->
  euler d (halfScaled (length_of d n) (closed gamma d l r (unitOf d n))) = euler d (eulerPhysical gamma d l n).
Proof.
  intros Hg Hl Hr Hn H. apply half_physical; [exact Hn|]. apply closed_upwind; try assumption.
  rewrite (un_roe gamma d l r (unitOf d n) Hl Hr), (a1_roe gamma d l r Hg Hl Hr), dot_unit.
  unfold epsilon. apply Rmult_le_reg_l with (length_of d n); [exact Hn|].
  replace (length_of d n * (/ length_of d n * dot d (roeVelocity l r) n - roeSound gamma d l r))
    with (dot d (roeVelocity l r) n - length_of d n * roeSound gamma d l r) by (field; lra). lra.
Qed.
Lemma upwind_left_one gamma d l r n : 1 < gamma -> gas gamma d l -> gas gamma d r ->
  roeSound gamma d l r + / 100 <= dot d (roeVelocity l r) n ->
  euler d (halfScaled 1 (closed gamma d l r n)) = euler d (eulerPhysical gamma d l n).
Proof.
  intros Hg Hl Hr H. apply half_physical_one. apply closed_upwind; try assumption.
  rewrite (un_roe gamma d l r n Hl Hr), (a1_roe gamma d l r Hg Hl Hr). unfold epsilon. lra.
Qed.

Lemma roeMean_swap x y l r : roeMean x y l r = roeMean y x r l.
Proof. unfold roeMean. rewrite (Rplus_comm (sqrt (density l)) (sqrt (density r))). f_equal. ring. Qed.
Lemma roeVelocity_swap l r i : roeVelocity l r i = roeVelocity r l i.
Proof. apply roeMean_swap. Qed.
Lemma roeSound_swap gamma d l r : roeSound gamma d l r = roeSound gamma d r l.
Proof.
  unfold roeSound. rewrite roeMean_swap.
  rewrite (dot_ext d (roeVelocity l r) (roeVelocity l r) (roeVelocity r l) (roeVelocity r l))
    by (intros; apply roeVelocity_swap). reflexivity.
Qed.
Lemma physical_opposite gamma d s n :
  neg (euler d (eulerPhysical gamma d s (opposite n))) = euler d (eulerPhysical gamma d s n).
Proof.
  rewrite neg_euler. unfold eulerPhysical, opposite. rewrite dot_opp_r.
  apply euler_ext; cbn [density momentum energy]; intros; ring.
Qed.
Lemma neg_neg v : neg (neg v) = v.
Proof. unfold neg. rewrite map_map. rewrite <- (map_id v) at 2. apply map_ext. intros. ring. Qed.

Lemma upwind_right gamma d l r n : 1 < gamma -> gas gamma d l -> gas gamma d r -> 0 < length_of d n ->
  dot d (roeVelocity l r) n <= - (length_of d n * (roeSound gamma d l r + / 100)) ->
  euler d (halfScaled (length_of d n) (closed gamma d l r (unitOf d n))) = euler d (eulerPhysical gamma d r n).
Proof.
  intros Hg Hl Hr Hn H. rewrite <- (neg_neg (euler d (halfScaled _ _))), <- half_opposite.
  rewrite upwind_left; try assumption; [apply physical_opposite|rewrite length_opposite; exact Hn|].
  rewrite length_opposite, (roeSound_swap gamma d r l).
  rewrite (dot_ext d (roeVelocity r l) (opposite n) (roeVelocity l r) (opposite n)) by (intros; auto using roeVelocity_swap).
  unfold opposite. rewrite dot_opp_r. lra.
Qed.
Lemma upwind_right_one gamma d l r n : 1 < gamma -> gas gamma d l -> gas gamma d r ->
  dot d (roeVelocity l r) n <= - (roeSound gamma d l r + / 100) ->
  euler d (halfScaled 1 (closed gamma d l r n)) = euler d (eulerPhysical gamma d r n).
Proof.
  intros Hg Hl Hr H. rewrite <- (neg_neg (euler d (halfScaled _ _))), <- half_opposite_one.
  rewrite upwind_left_one; try assumption; [apply physical_opposite|].
  rewrite (roeSound_swap gamma d r l).
  rewrite (dot_ext d (roeVelocity r l) (opposite n) (roeVelocity l r) (opposite n)) by (intros; auto using roeVelocity_swap).
  unfold opposite. rewrite dot_opp_r. lra.
Qed.
