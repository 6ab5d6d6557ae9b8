(** C66: the numerical fluxes of the applications are consistent with the equations and conservative. *)
From Coq Require Import List Arith Reals Lia Lra.
From Verif Require Import Loop_model Loop_proofs Flux_model Flux_spec Flux_proofs FluxRoe_proofs FluxFace_proofs
  FluxShallow_proofs FluxEnd_proofs FluxWave_proofs.
Import ListNotations.
Local Open Scope R_scope.

(** ** Euler equations and compressible Navier-Stokes equations, in any dimension *)

(** Equal states on both sides: the flux of the equations in the direction of the normal, of any length. *)
Theorem C66_euler_consistent : forall gamma d s n, 1 < gamma -> gas gamma d s -> 0 < length_of d n ->
  eulerFlux gamma d (euler d s) (euler d s) (vec d n) = Some (euler d (eulerPhysical gamma d s n)).
Proof.
  intros gamma d s n Hg Hs Hn. rewrite eulerFlux_ok by assumption. f_equal.
  apply half_physical; [exact Hn|]. apply closed_same; assumption.
Qed.
Print Assumptions C66_euler_consistent.

(** What flows out of one side flows into the other: the flux exists for all gases and changes sign when the sides are
    exchanged. *)
Theorem C66_euler_conservative : forall gamma d l r n, 1 < gamma -> gas gamma d l -> gas gamma d r -> 0 < length_of d n ->
  exists f, eulerFlux gamma d (euler d l) (euler d r) (vec d n) = Some f /\
    eulerFlux gamma d (euler d r) (euler d l) (vec d (opposite n)) = Some (neg f).
Proof.
  intros gamma d l r n Hg Hl Hr Hn. rewrite !eulerFlux_ok by (try assumption; rewrite length_opposite; assumption).
  eexists. split; [reflexivity|]. rewrite half_opposite. reflexivity.
Qed.
Print Assumptions C66_euler_conservative.

(** When the averaged flow is supersonic (by more than the 1/100 in which the waves are smeared) the flux is that of
    the side where the flow comes from. *)
Theorem C66_euler_upwind : forall gamma d l r n, 1 < gamma -> gas gamma d l -> gas gamma d r -> 0 < length_of d n ->
  (length_of d n * (roeSound gamma d l r + / 100) <= dot d (roeVelocity l r) n ->
     eulerFlux gamma d (euler d l) (euler d r) (vec d n) = Some (euler d (eulerPhysical gamma d l n))) /\
  (dot d (roeVelocity l r) n <= - (length_of d n * (roeSound gamma d l r + / 100)) ->
     eulerFlux gamma d (euler d l) (euler d r) (vec d n) = Some (euler d (eulerPhysical gamma d r n))).
Proof.
  intros gamma d l r n Hg Hl Hr Hn. rewrite eulerFlux_ok by assumption.
  split; intros H; f_equal; [apply upwind_left; assumption|apply upwind_right; assumption].
Qed.
Print Assumptions C66_euler_upwind.

(** In all cases: every jump is a sum of waves, and for every such sum the flux is the mean of the fluxes of both sides
    minus half of every wave times its (smoothed) speed. The flux is proportional to the length of the normal. *)
Theorem C66_waves : forall gamma d l r n, 1 < gamma -> gas gamma d l -> gas gamma d r -> dot d n n = 1 ->
  (exists a b w, waves gamma d l r n a b w) /\
  forall a b w, waves gamma d l r n a b w ->
    inviscidFlux gamma d (euler d l) (euler d r) (vec d n) = Some (euler d (roeWaves gamma d l r n a b w)) /\
    forall area, 0 < area -> eulerFlux gamma d (euler d l) (euler d r) (vec d (fun i => area * n i))
                             = Some (euler d (scaled area (roeWaves gamma d l r n a b w))).
Proof.
  intros gamma d l r n Hg Hl Hr Hn. split; [apply waves_exist; assumption|]. intros a b w W. split.
  - rewrite inviscidFlux_ok by assumption. f_equal. apply closed_waves; assumption.
  - intros area Ha. apply eulerFlux_area; assumption.
Qed.
Print Assumptions C66_waves.

(** At a solid wall no mass and no energy leave the gas, whatever its state. *)
Theorem C66_euler_wall : forall gamma d phi c n, 1 < gamma -> 0 < length_of d n ->
  length c = ((d + 2) * length phi)%nat -> gas gamma d (traceState d phi c) ->
  exists v, eulerWall gamma d phi c (vec d n) = Some v /\ length v = length c /\
    forall w, tested w phi v 0 = 0 /\ tested w phi v (d + 1) = 0.
Proof. exact euler_wall. Qed.
Print Assumptions C66_euler_wall.

(** The flux through a wall should be that between the gas and its image behind the wall. The arguments of the flux are
    exchanged: gas that runs into a wall feels a force below p + rho u^2 instead of above it. *)
Theorem C66_euler_wall_refuted : forall gamma s, 1 < gamma -> gas gamma 1 s -> 0 < momentum s 0 ->
  exists f g, eulerWallFlux gamma 1 (euler 1 s) (vec 1 (fun _ => 1)) = Some (euler 1 f) /\
    eulerFlux gamma 1 (euler 1 s) (euler 1 (reversed s)) (vec 1 (fun _ => 1)) = Some (euler 1 g) /\
    momentum f 0 < momentum s 0 / density s * momentum s 0 + pressure gamma 1 s < momentum g 0.
Proof. exact wall_line. Qed.
Print Assumptions C66_euler_wall_refuted.

(** Inside an element the derivative of every basis function is multiplied with the same flux of the equations. *)
Theorem C66_euler_element : forall gamma d nB s (g : nat -> nat -> R) gs, gas gamma d s -> length gs = nB ->
  (forall iB, (iB < nB)%nat -> nth_error gs iB = Some (vec d (g iB))) ->
  exists v, eulerElement gamma d nB (euler d s) gs = Some v /\ length v = ((d + 2) * nB)%nat /\
    forall iV iB, (iV < d + 2)%nat -> (iB < nB)%nat ->
      entry v nB iV iB = nth iV (euler d (eulerPhysical gamma d s (g iB))) 0.
Proof. intros gamma d nB s g gs Hs. apply volume_ok; [destruct Hs; lra|exact Hs]. Qed.
Print Assumptions C66_euler_element.

(** On a face between two elements: the weak forms of both elements, tested with any functions, contain the flux of the
    traces with opposite signs. With the test function one on both sides (equal values) they cancel. *)
Theorem C66_euler_faces : forall gamma d phiL phiR cL cR n, 1 < gamma -> 0 < length_of d n ->
  length cL = ((d + 2) * length phiL)%nat -> length cR = ((d + 2) * length phiR)%nat ->
  gas gamma d (traceState d phiL cL) -> gas gamma d (traceState d phiR cR) ->
  exists f vL vR,
    eulerFlux gamma d (euler d (traceState d phiL cL)) (euler d (traceState d phiR cR)) (vec d n) = Some f /\
    eulerFace gamma d LEFT phiL phiR cL cR (vec d n) = Some vL /\
    eulerFace gamma d RIGHT phiL phiR cL cR (vec d n) = Some vR /\
    length vL = length cL /\ length vR = length cR /\
    forall iV, (iV < d + 2)%nat -> forall w,
      tested w phiL vL iV = - nth iV f 0 * value w phiL /\ tested w phiR vR iV = nth iV f 0 * value w phiR.
Proof. exact euler_faces. Qed.
Print Assumptions C66_euler_faces.

(** The inviscid flux of the compressible Navier-Stokes application *)
Theorem C66_inviscid : forall gamma d l r n, 1 < gamma -> gas gamma d l -> gas gamma d r ->
  inviscidFlux gamma d (euler d l) (euler d l) (vec d n) = Some (euler d (eulerPhysical gamma d l n)) /\
  fluxFunction d (euler d l) (pressure gamma d l) (vec d n) = Some (euler d (eulerPhysical gamma d l n)) /\
  (exists f, inviscidFlux gamma d (euler d l) (euler d r) (vec d n) = Some f /\
     inviscidFlux gamma d (euler d r) (euler d l) (vec d (opposite n)) = Some (neg f)) /\
  (roeSound gamma d l r + / 100 <= dot d (roeVelocity l r) n ->
     inviscidFlux gamma d (euler d l) (euler d r) (vec d n) = Some (euler d (eulerPhysical gamma d l n))) /\
  (dot d (roeVelocity l r) n <= - (roeSound gamma d l r + / 100) ->
     inviscidFlux gamma d (euler d l) (euler d r) (vec d n) = Some (euler d (eulerPhysical gamma d r n))).
Proof.
  intros gamma d l r n Hg Hl Hr. rewrite !inviscidFlux_ok by assumption.
  split; [f_equal; apply half_physical_one, closed_same; assumption|].
  split; [apply fluxFunction_ok; destruct Hl; lra|].
  split; [eexists; split; [reflexivity|]; rewrite half_opposite_one; reflexivity|].
  split; intros H; f_equal; [apply upwind_left_one; assumption|apply upwind_right_one; assumption].
Qed.
Print Assumptions C66_inviscid.

(** its integrands, computed for each side from that side *)
Theorem C66_inviscid_sides : forall gamma d phiL phiR l r n, 1 < gamma -> gas gamma d l -> gas gamma d r ->
  exists f vL vR,
    inviscidFlux gamma d (euler d l) (euler d r) (vec d n) = Some f /\
    inviscidFace gamma d phiL (euler d l) (euler d r) (vec d n) = Some vL /\
    inviscidFace gamma d phiR (euler d r) (euler d l) (vec d (opposite n)) = Some vR /\
    length vL = ((d + 2) * length phiL)%nat /\ length vR = ((d + 2) * length phiR)%nat /\
    forall iV, (iV < d + 2)%nat -> forall w,
      tested w phiL vL iV = - nth iV f 0 * value w phiL /\ tested w phiR vR iV = nth iV f 0 * value w phiR.
Proof. exact inviscid_sides. Qed.
Print Assumptions C66_inviscid_sides.

(** and for both sides at once; missing: elements with different numbers of basis functions (see below). *)
Theorem C66_inviscid_pair_partial : forall gamma d phiL phiR l r n, 1 < gamma -> gas gamma d l -> gas gamma d r ->
  length phiR = length phiL ->
  exists f vL vR,
    inviscidFlux gamma d (euler d l) (euler d r) (vec d n) = Some f /\
    inviscidFaces gamma d phiL phiR (euler d l) (euler d r) (vec d n) = Some (vL, vR) /\
    length vL = ((d + 2) * length phiL)%nat /\ length vR = ((d + 2) * length phiR)%nat /\
    forall iV, (iV < d + 2)%nat -> forall w,
      tested w phiL vL iV = - nth iV f 0 * value w phiL /\ tested w phiR vR iV = nth iV f 0 * value w phiR.
Proof. exact inviscid_pair. Qed.
Print Assumptions C66_inviscid_pair_partial.

(** When the right element has fewer basis functions than the left, a basis function is asked for that does not exist;
    when it has more, the integrand of the right element has its values in the wrong places. *)
Theorem C66_inviscid_pair_refuted : exists gamma s n, 1 < gamma /\ gas gamma 1 s /\
  inviscidFaces gamma 1 [1; 1] [1] (euler 1 s) (euler 1 s) (vec 1 n) = None /\
  exists f vL vR, inviscidFlux gamma 1 (euler 1 s) (euler 1 s) (vec 1 n) = Some f /\
    inviscidFaces gamma 1 [1] [1; 1] (euler 1 s) (euler 1 s) (vec 1 n) = Some (vL, vR) /\
    exists iV w, (iV < 3)%nat /\ tested w [1; 1] vR iV <> nth iV f 0 * value w [1; 1].
Proof.
  pose (s := State 1 (fun _ => 1) 3). exists 2, s, (fun _ => 1).
  assert (D : dot 1 (momentum s) (momentum s) = 1) by (unfold dot; cbn; ring).
  assert (P : pressure 2 1 s = 5 / 2) by (unfold pressure; rewrite D; cbn; field).
  assert (Hs : gas 2 1 s) by (split; [cbn; lra|rewrite P; lra]).
  assert (F : inviscidFlux 2 1 (euler 1 s) (euler 1 s) (vec 1 (fun _ => 1)) = Some [1; 7 / 2; 11 / 2]).
  { destruct (C66_inviscid 2 1 s s (fun _ => 1) ltac:(lra) Hs Hs) as (-> & _). f_equal.
    unfold eulerPhysical. rewrite P. unfold euler, vec, dot. cbn. f_equal; [ring|]. f_equal; [field|]. f_equal. field. }
  split; [lra|]. split; [exact Hs|].
  unfold inviscidFaces. cbv zeta. rewrite F. cbn [bind]. split; [reflexivity|].
  eexists _, _, _. split; [reflexivity|]. split; [reflexivity|].
  exists 0%nat, (fun b => if (b =? 1)%nat then 1 else 0). split; [lia|].
  unfold tested, value, entry. cbn. lra.
Qed.
Print Assumptions C66_inviscid_pair_refuted.

(** Non-vacuity: two gases in three dimensions, at rest and in supersonic motion *)
Definition resting : state := State 1 (fun _ => 0) 1.
Definition flying : state := State 4 (fun i => if (i =? 0)%nat then 40 else 0) 202.
Lemma resting_gas : gas (7 / 5) 3 resting.
Proof. unfold gas, pressure, dot. cbn. lra. Qed.
Lemma flying_gas : gas (7 / 5) 3 flying.
Proof. unfold gas, pressure, dot. cbn. lra. Qed.
Lemma unit_length : length_of 3 (fun i => if (i =? 0)%nat then 1 else 0) = 1.
Proof. unfold length_of, dot. cbn. replace (0 + 1 * 1 + 0 * 0 + 0 * 0) with 1 by ring. apply sqrt_1. Qed.
Example C66_euler_nonvacuous : 1 < 7 / 5 /\ gas (7 / 5) 3 resting /\ gas (7 / 5) 3 flying /\
  0 < length_of 3 (fun i => if (i =? 0)%nat then 1 else 0) /\ dot 3 (fun i => if (i =? 0)%nat then 1 else 0) (fun i => if (i =? 0)%nat then 1 else 0) = 1 /\
  pressure (7 / 5) 3 resting <> pressure (7 / 5) 3 flying /\
  roeSound (7 / 5) 3 flying flying + / 100 <= dot 3 (roeVelocity flying flying) (fun i => if (i =? 0)%nat then 1 else 0).
Proof.
  split; [lra|]. split; [exact resting_gas|]. split; [exact flying_gas|]. split; [rewrite unit_length; lra|].
  split; [unfold dot; cbn; ring|].
  split; [unfold pressure, dot; cbn; lra|].
  assert (Z : sqrt (density flying) = 2) by (cbn; replace 4 with (2 * 2) by ring; apply sqrt_square; lra).
  assert (V : forall i, roeVelocity flying flying i = if (i =? 0)%nat then 10 else 0).
  { intros i. unfold roeVelocity, roeMean. rewrite Z. cbn. destruct (i =? 0)%nat; field. }
  assert (P : pressure (7 / 5) 3 flying = 4 / 5) by (unfold pressure, dot; cbn; field).
  assert (S : roeSound (7 / 5) 3 flying flying <= 1).
  { unfold roeSound, roeMean, enthalpy. rewrite Z, P. apply Rle_trans with (sqrt 1); [apply sqrt_le_1_alt|rewrite sqrt_1; lra].
    unfold dot. cbn [sum]. rewrite !V. cbn. lra. }
  unfold dot. cbn [sum]. rewrite !V. cbn. lra.
Qed.

(** faces: one basis function per side, the two gases on a line *)
Example C66_euler_faces_nonvacuous : exists cL cR, length cL = (3 * length [1])%nat /\ length cR = (3 * length [1])%nat /\
  gas 2 1 (traceState 1 [1] cL) /\ gas 2 1 (traceState 1 [1] cR) /\
  trace [1] cL 0 <> trace [1] cR 0 /\ value (fun _ => 1) [1] = 1.
Proof.
  exists [1; 1; 3], [2; 1; 3]. unfold gas, pressure, dot, traceState, trace, value, entry. cbn.
  split; [reflexivity|]. split; [reflexivity|]. repeat split; lra.
Qed.

(** ** Shallow granular flow *)
Section Shallow.
  Variables dryLimit epsilon cosine alpha : R.
  Hypothesis Hdry : 0 <= dryLimit.
  Hypothesis Hg : 0 < epsilon * cosine.

  (** One dimension: consistent, conservative, and the flux of the left state when all waves go to the right. *)
  Theorem C66_shallow_line : forall l r n, flow l -> flow r ->
    let flux := hllc1D dryLimit epsilon cosine (physicalFlux1D dryLimit epsilon cosine alpha) in
    let physical := shallowPhysical1 dryLimit epsilon cosine alpha in
    let wave s := sqrt (epsilon * cosine * density s) in
    flux (shallow1 l) (shallow1 l) n = Some (physical l n) /\
    (exists f, flux (shallow1 l) (shallow1 r) n = Some f /\ flux (shallow1 r) (shallow1 l) (- n) = Some (neg f)) /\
    (wave l <= n * speed dryLimit l 0 -> wave r <= n * speed dryLimit r 0 ->
       flux (shallow1 l) (shallow1 r) n = Some (physical l n)).
  Proof.
    intros l r n Hl Hr. cbv zeta.
    split; [exact (hllc1D_same dryLimit epsilon cosine alpha Hdry Hg l n Hl)|].
    split; [exact (hllc1D_swap dryLimit epsilon cosine alpha Hdry Hg l r n Hl Hr)|].
    exact (hllc1D_upwind dryLimit epsilon cosine alpha Hdry Hg l r n Hl Hr).
  Qed.

  (** A channel of varying width *)
  Theorem C66_shallow_channel : forall x l r n, 0 < getWidth x -> flow l -> flow r ->
    hllcWidth dryLimit epsilon cosine x (shallow1 l) (shallow1 l) n
      = Some (channelPhysical dryLimit epsilon cosine (getWidth x) l n) /\
    exists f, hllcWidth dryLimit epsilon cosine x (shallow1 l) (shallow1 r) n = Some f /\
      hllcWidth dryLimit epsilon cosine x (shallow1 r) (shallow1 l) (- n) = Some (neg f).
  Proof.
    intros x l r n Hx Hl Hr.
    split; [exact (hllcWidth_same dryLimit epsilon cosine x Hdry Hg Hx l n Hl)|].
    exact (hllcWidth_swap dryLimit epsilon cosine x Hdry Hg Hx l r n Hl Hr).
  Qed.

  (** Two dimensions: both fluxes *)
  Theorem C66_shallow_plane : forall l r nx ny, flow l -> flow r ->
    let wave s := sqrt (epsilon * cosine * density s) in
    let across s := speed dryLimit s 0 * nx + speed dryLimit s 1 * ny in
    (forall flux, flux = hllc2D dryLimit epsilon cosine \/ flux = laxFriedrichs2D dryLimit epsilon cosine ->
       flux (shallow2 l) (shallow2 l) [nx; ny] = Some (shallowPhysical2 dryLimit epsilon cosine l nx ny) /\
       exists f, flux (shallow2 l) (shallow2 r) [nx; ny] = Some f /\
         flux (shallow2 r) (shallow2 l) [- nx; - ny] = Some (neg f)) /\
    (wave l <= across l -> wave r <= across r ->
       hllc2D dryLimit epsilon cosine (shallow2 l) (shallow2 r) [nx; ny]
       = Some (shallowPhysical2 dryLimit epsilon cosine l nx ny)).
  Proof.
    intros l r nx ny Hl Hr. cbv zeta. split.
    - intros flux [->| ->].
      + split; [exact (hllc2D_same dryLimit epsilon cosine Hdry Hg l nx ny Hl)|].
        exact (hllc2D_swap dryLimit epsilon cosine Hdry Hg l r nx ny Hl Hr).
      + split; [exact (laxFriedrichs_same dryLimit epsilon cosine Hdry Hg l nx ny Hl)|].
        exact (laxFriedrichs_swap dryLimit epsilon cosine Hdry Hg l r nx ny Hl Hr).
    - exact (hllc2D_upwind dryLimit epsilon cosine Hdry Hg l r nx ny Hl Hr).
  Qed.

  (** All cases: the flux is that of two waves with the smallest and the largest speed on both sides. *)
  Theorem C66_shallow_waves : forall l r, flow l -> flow r ->
    let wave s := sqrt (epsilon * cosine * density s) in
    (forall n, exists f,
       hllc1D dryLimit epsilon cosine (physicalFlux1D dryLimit epsilon cosine alpha) (shallow1 l) (shallow1 r) n = Some f /\
       twoWaves (shallow1 l) (shallow1 r)
         (shallowPhysical1 dryLimit epsilon cosine alpha l n) (shallowPhysical1 dryLimit epsilon cosine alpha r n)
         (Rmin (n * speed dryLimit l 0 - wave l) (n * speed dryLimit r 0 - wave r))
         (Rmax (n * speed dryLimit l 0 + wave l) (n * speed dryLimit r 0 + wave r)) f) /\
    (forall x n, 0 < getWidth x -> let wave s := sqrt (epsilon * cosine * (density s / getWidth x)) in exists f,
       hllcWidth dryLimit epsilon cosine x (shallow1 l) (shallow1 r) n = Some f /\
       twoWaves (shallow1 l) (shallow1 r)
         (channelPhysical dryLimit epsilon cosine (getWidth x) l n) (channelPhysical dryLimit epsilon cosine (getWidth x) r n)
         (Rmin (n * speed dryLimit l 0 - wave l) (n * speed dryLimit r 0 - wave r))
         (Rmax (n * speed dryLimit l 0 + wave l) (n * speed dryLimit r 0 + wave r)) f) /\
    (forall nx ny, let across s := speed dryLimit s 0 * nx + speed dryLimit s 1 * ny in exists f,
       hllc2D dryLimit epsilon cosine (shallow2 l) (shallow2 r) [nx; ny] = Some f /\
       twoWaves (shallow2 l) (shallow2 r)
         (shallowPhysical2 dryLimit epsilon cosine l nx ny) (shallowPhysical2 dryLimit epsilon cosine r nx ny)
         (Rmin (across l - wave l) (across r - wave r)) (Rmax (across l + wave l) (across r + wave r)) f).
  Proof.
    intros l r Hl Hr. cbv zeta.
    split; [intros n; exact (hllc1D_waves dryLimit epsilon cosine alpha Hdry Hg l r n Hl Hr)|].
    split; [intros x n Hx; exact (hllcWidth_waves dryLimit epsilon cosine x Hdry Hg Hx l r n Hl Hr)|].
    intros nx ny. exact (hllc2D_waves dryLimit epsilon cosine Hdry Hg l r nx ny Hl Hr).
  Qed.

  (** The local Lax-Friedrichs flux: the mean of the fluxes minus half the jump times the largest speed in the directions
      of the axes; missing: in the direction of the normal (see below). *)
  Theorem C66_lax_friedrichs_partial : forall l r nx ny, flow l -> flow r ->
    let wave s := sqrt (epsilon * cosine * density s) in
    exists f a, laxFriedrichs2D dryLimit epsilon cosine (shallow2 l) (shallow2 r) [nx; ny] = Some f /\ length f = 3%nat /\
      (forall s i, s = l \/ s = r -> i = 0%nat \/ i = 1%nat -> Rabs (speed dryLimit s i) + wave s <= a) /\
      (exists s i, (s = l \/ s = r) /\ (i = 0%nat \/ i = 1%nat) /\ a = Rabs (speed dryLimit s i) + wave s) /\
      forall i, (i < 3)%nat -> nth i f 0 =
        (nth i (shallowPhysical2 dryLimit epsilon cosine l nx ny) 0
         + nth i (shallowPhysical2 dryLimit epsilon cosine r nx ny) 0) / 2
        - a / 2 * (nth i (shallow2 r) 0 - nth i (shallow2 l) 0).
  Proof. intros l r nx ny Hl Hr. exact (laxFriedrichs_waves dryLimit epsilon cosine Hdry Hg l r nx ny Hl Hr). Qed.

  (** Solid wall: the flux between the flow and its mirror image; nothing flows through. *)
  Theorem C66_shallow_wall : forall s nx ny, 0 < density s -> nx * nx + ny * ny = 1 ->
    wallFlux2D dryLimit epsilon cosine (shallow2 s) [nx; ny]
    = hllc2D dryLimit epsilon cosine (shallow2 s) (shallow2 (mirrored s nx ny)) [nx; ny] /\
    exists f, wallFlux2D dryLimit epsilon cosine (shallow2 s) [nx; ny] = Some f /\ nth_error f 0 = Some 0.
  Proof. exact (wall2D dryLimit epsilon cosine Hdry Hg). Qed.

  (** Integrands of both sides of a face in two dimensions, one by one and together *)
  Theorem C66_shallow_faces : forall phiL phiR cL cR nx ny,
    length cL = (3 * length phiL)%nat -> length cR = (3 * length phiR)%nat ->
    flow (traceState 2 phiL cL) -> flow (traceState 2 phiR cR) ->
    exists f vL vR,
      hllc2D dryLimit epsilon cosine (shallow2 (traceState 2 phiL cL)) (shallow2 (traceState 2 phiR cR)) [nx; ny] = Some f /\
      savageHutterFace2D dryLimit epsilon cosine LEFT phiL phiR cL cR [nx; ny] = Some vL /\
      savageHutterFace2D dryLimit epsilon cosine RIGHT phiL phiR cL cR [nx; ny] = Some vR /\
      length vL = length cL /\ length vR = length cR /\
      forall iV, (iV < 3)%nat -> forall w,
        tested w phiL vL iV = - nth iV f 0 * value w phiL /\ tested w phiR vR iV = nth iV f 0 * value w phiR.
  Proof. exact (shallow_faces dryLimit epsilon cosine Hdry Hg). Qed.
  Theorem C66_shallow_pair : forall phiL phiR cL cR nx ny,
    length cL = (3 * length phiL)%nat -> length cR = (3 * length phiR)%nat ->
    flow (traceState 2 phiL cL) -> flow (traceState 2 phiR cR) ->
    exists f vL vR,
      hllc2D dryLimit epsilon cosine (shallow2 (traceState 2 phiL cL)) (shallow2 (traceState 2 phiR cR)) [nx; ny] = Some f /\
      savageHutterFaces2D dryLimit epsilon cosine phiL phiR cL cR [nx; ny] = Some (vL, vR) /\
      length vL = length cL /\ length vR = length cR /\
      forall iV, (iV < 3)%nat -> forall w,
        tested w phiL vL iV = - nth iV f 0 * value w phiL /\ tested w phiR vR iV = nth iV f 0 * value w phiR.
  Proof. exact (shallow_pair dryLimit epsilon cosine Hdry Hg). Qed.

  (** In one dimension what leaves one element enters the other, for both orientations of the face; *)
  Theorem C66_shallow_line_conservative : forall phiL phiR cL cR n,
    length cL = (2 * length phiL)%nat -> length cR = (2 * length phiR)%nat ->
    flow (traceState 1 phiL cL) -> flow (traceState 1 phiR cR) ->
    exists vL vR,
      savageHutterFace1D dryLimit epsilon cosine alpha LEFT phiL phiR cL cR n = Some vL /\
      savageHutterFace1D dryLimit epsilon cosine alpha RIGHT phiL phiR cL cR n = Some vR /\
      length vL = length cL /\ length vR = length cR /\
      forall iV, (iV < 2)%nat -> forall wL wR, value wL phiL = value wR phiR ->
        tested wL phiL vL iV + tested wR phiR vR iV = 0.
  Proof.
    intros phiL phiR cL cR n HL HR Fl Fr.
    destruct (line_faces dryLimit epsilon cosine alpha Hdry Hg phiL phiR cL cR n HL HR Fl Fr)
      as (f & vL & vR & _ & EL & ER & LL & LR & T).
    exists vL, vR. split; [exact EL|]. split; [exact ER|]. split; [exact LL|]. split; [exact LR|].
    intros iV Hi wL wR E. rewrite (proj1 (T iV Hi wL)), (proj2 (T iV Hi wR)), E. ring.
  Qed.
  (** and the weak forms contain the flux through the face when the normal of the left element is +1; missing: -1. *)
  Theorem C66_shallow_line_faces_partial : forall phiL phiR cL cR,
    length cL = (2 * length phiL)%nat -> length cR = (2 * length phiR)%nat ->
    flow (traceState 1 phiL cL) -> flow (traceState 1 phiR cR) ->
    exists f vL vR,
      hllc1D dryLimit epsilon cosine (physicalFlux1D dryLimit epsilon cosine alpha)
        (shallow1 (traceState 1 phiL cL)) (shallow1 (traceState 1 phiR cR)) 1 = Some f /\
      savageHutterFace1D dryLimit epsilon cosine alpha LEFT phiL phiR cL cR 1 = Some vL /\
      savageHutterFace1D dryLimit epsilon cosine alpha RIGHT phiL phiR cL cR 1 = Some vR /\
      length vL = length cL /\ length vR = length cR /\
      forall iV, (iV < 2)%nat -> forall w,
        tested w phiL vL iV = - nth iV f 0 * value w phiL /\ tested w phiR vR iV = nth iV f 0 * value w phiR.
  Proof.
    intros phiL phiR cL cR HL HR Fl Fr.
    destruct (line_faces dryLimit epsilon cosine alpha Hdry Hg phiL phiR cL cR 1 HL HR Fl Fr)
      as (f & vL & vR & Ef & EL & ER & LL & LR & T).
    exists f, vL, vR. split; [exact Ef|]. split; [exact EL|]. split; [exact ER|]. split; [exact LL|]. split; [exact LR|].
    intros iV Hi w. destruct (T iV Hi w) as (-> & ->). split; ring.
  Qed.

  (** The normal is counted twice: with the normal -1, uniform flow with momentum m through a face on which the basis
      function is one gives the left element -m, although m leaves it in the direction of the axis and so +m enters. *)
  Theorem C66_shallow_line_faces_refuted : forall h m, 0 < h -> m <> 0 ->
    hllc1D dryLimit epsilon cosine (physicalFlux1D dryLimit epsilon cosine alpha) [h; m] [h; m] (-1)
      = Some (shallowPhysical1 dryLimit epsilon cosine alpha (State h (fun _ => m) 0) (-1)) /\
    exists vL, savageHutterFace1D dryLimit epsilon cosine alpha LEFT [1] [1] [h; m] [h; m] (-1) = Some vL /\
      tested (fun _ => 1) [1] vL 0 = - m /\ - m <> - (m * -1).
  Proof.
    intros h m Hh Hm. pose (s := State h (fun _ => m) 0).
    assert (Fs : flow s) by (split; cbn; [lra|intros; lra]).
    pose proof (hllc1D_same dryLimit epsilon cosine alpha Hdry Hg s (-1) Fs) as E.
    split; [exact E|].
    assert (T : traceState 1 [1] [h; m] = State (0 + 1 * h) (fun i => trace [1] [h; m] (S i)) (trace [1] [h; m] 2))
      by reflexivity.
    assert (Ft : flow (traceState 1 [1] [h; m])).
    { rewrite T. split; cbn; [lra|]. intros; lra. }
    destruct (line_faces dryLimit epsilon cosine alpha Hdry Hg [1] [1] [h; m] [h; m] (-1) eq_refl eq_refl Ft Ft)
      as (f & vL & vR & Ef & EL & _ & _ & _ & V).
    exists vL. split; [exact EL|].
    replace (shallow1 (traceState 1 [1] [h; m])) with (shallow1 s) in Ef.
    2: { unfold shallow1, s, traceState, trace, entry. cbn. f_equal; [ring|]. f_equal. ring. }
    unfold flux1D in E. rewrite E in Ef. injection Ef as <-.
    rewrite (proj1 (V 0%nat ltac:(lia) (fun _ => 1))). unfold value, shallowPhysical1, s. cbn. split; [ring|lra].
  Qed.
End Shallow.
Print Assumptions C66_shallow_line.
Print Assumptions C66_shallow_channel.
Print Assumptions C66_shallow_plane.
Print Assumptions C66_shallow_waves.
Print Assumptions C66_lax_friedrichs_partial.
Print Assumptions C66_shallow_wall.
Print Assumptions C66_shallow_faces.
Print Assumptions C66_shallow_pair.
Print Assumptions C66_shallow_line_conservative.
Print Assumptions C66_shallow_line_faces_partial.
Print Assumptions C66_shallow_line_faces_refuted.

(** On a face that is not parallel to an axis there are faster waves than the speed of the local Lax-Friedrichs flux. *)
Theorem C66_lax_friedrichs_refuted : exists dryLimit epsilon cosine l r nx ny,
  0 <= dryLimit /\ 0 < epsilon * cosine /\ flow l /\ flow r /\ nx * nx + ny * ny = 1 /\
  exists f a, laxFriedrichs2D dryLimit epsilon cosine (shallow2 l) (shallow2 r) [nx; ny] = Some f /\
    nth 0 f 0 = (nth 0 (shallowPhysical2 dryLimit epsilon cosine l nx ny) 0
                 + nth 0 (shallowPhysical2 dryLimit epsilon cosine r nx ny) 0) / 2 - a / 2 * (density r - density l) /\
    density r <> density l /\
    a < speed dryLimit l 0 * nx + speed dryLimit l 1 * ny + sqrt (epsilon * cosine * density l).
Proof.
  pose (l := State 1 (fun i => if (i =? 0)%nat then 30 else 40) 0). pose (r := State 4 (fun _ => 0) 0).
  exists 0, 1, 1, l, r, (3 / 5), (4 / 5).
  assert (Fl : flow l) by (split; cbn; [lra|intros; lra]). assert (Fr : flow r) by (split; cbn; [lra|intros; lra]).
  split; [lra|]. split; [lra|]. split; [exact Fl|]. split; [exact Fr|]. split; [field|].
  destruct (C66_lax_friedrichs_partial 0 1 1 ltac:(lra) ltac:(lra) l r (3 / 5) (4 / 5) Fl Fr) as (f & a & E & _ & _ & A & V).
  exists f, a. split; [exact E|]. split; [exact (V 0%nat ltac:(lia))|]. split; [cbn; lra|].
  assert (L : forall i, speed 0 l i = if (i =? 0)%nat then 30 else 40).
  { intros i. unfold speed. cbn. destruct (Rlt_dec 0 1); [|lra]. destruct (i =? 0)%nat; field. }
  assert (Rr : forall i, speed 0 r i = 0).
  { intros i. unfold speed. cbn. destruct (Rlt_dec 0 4); [|lra]. field. }
  assert (W : sqrt (1 * 1 * density l) = 1) by (cbn; rewrite !Rmult_1_r; apply sqrt_1).
  assert (W' : sqrt (1 * 1 * density r) = 2).
  { cbn. replace (1 * 1 * 4) with (2 * 2) by ring. apply sqrt_square. lra. }
  rewrite !L, W. cbn [Nat.eqb].
  destruct A as (s & i & [-> | ->] & Hi & ->).
  - rewrite L, W. destruct Hi as [-> | ->]; cbn [Nat.eqb]; rewrite Rabs_pos_eq; lra.
  - rewrite Rr, W', Rabs_R0. lra.
Qed.
Print Assumptions C66_lax_friedrichs_refuted.

(** a dry place beside flowing material, in the parameters of the application *)
Example C66_shallow_nonvacuous : 0 <= / 100000 /\ 0 < / 10 * 1 /\ flow (State 0 (fun _ => 0) 0) /\
  flow (State 1 (fun i => if (i =? 0)%nat then 2 else 0) 0) /\ 0 < getWidth 2 /\
  exists cL cR, length cL = (3 * length [1])%nat /\ length cR = (3 * length [1])%nat /\
    flow (traceState 2 [1] cL) /\ flow (traceState 2 [1] cR) /\ trace [1] cL 0 <> trace [1] cR 0.
Proof.
  split; [lra|]. split; [lra|]. split; [split; cbn; [lra|intros; lra]|]. split; [split; cbn; [lra|intros; lra]|].
  split; [unfold getWidth; destruct (Rlt_dec 1 2); lra|].
  exists [1; 2; 0], [3; 2; 1]. split; [reflexivity|]. split; [reflexivity|].
  unfold traceState, trace, entry, flow. cbn. repeat split; try lra; intros; lra.
Qed.
