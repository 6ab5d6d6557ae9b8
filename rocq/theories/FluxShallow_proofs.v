(** Properties of the fluxes of shallow granular flow. *)
From Coq Require Import List Arith Reals Lia Lra.
From Verif Require Import Loop_model Loop_proofs Flux_model Flux_spec Flux_proofs FluxRoe_proofs FluxFace_proofs.
Import ListNotations.
Local Open Scope R_scope.

Lemma minus_vec k f g : minus (vec k f) (vec k g) = Some (vec k (fun i => f i - g i)).
Proof.
  unfold minus. rewrite !vec_length, Nat.eqb_refl. apply collect_ok. intros i Hi. rewrite !get_vec by exact Hi. reflexivity.
Qed.
Lemma plus_vec k f g : plus (vec k f) (vec k g) = Some (vec k (fun i => f i + g i)).
Proof.
  unfold plus. rewrite !vec_length, Nat.eqb_refl. apply collect_ok. intros i Hi. rewrite !get_vec by exact Hi. reflexivity.
Qed.
Lemma scale_vec k c f : scale c (vec k f) = vec k (fun i => f i * c).
Proof. unfold scale, vec. rewrite map_map. reflexivity. Qed.
Lemma neg_vec k f : neg (vec k f) = vec k (fun i => - f i).
Proof. unfold neg, vec. rewrite map_map. reflexivity. Qed.
Lemma divide_vec k f c : c <> 0 -> divide (vec k f) c = Some (vec k (fun i => f i / c)).
Proof.
  intros H. unfold divide. rewrite vec_length. apply collect_ok. intros i Hi. rewrite get_vec by exact Hi.
  cbn [bind]. apply div_ok. exact H.
Qed.

(** * Between the slowest and the fastest wave *)
Section Between.
  Variable k : nat.
  Variables (ql qr fl fr : nat -> R) (sL sR cL cR : R).
  Let sl := Rmin (sL - cL) (sR - cR).
  Let sr := Rmax (sL + cL) (sR + cR).
  Definition between : nat -> R := fun i => (fl i * sr - fr i * sl + (qr i - ql i) * (sl * sr)) / (sr - sl).

  Lemma between_ok : betweenSpeeds (vec k ql) (vec k qr) (vec k fl) (vec k fr) sL sR cL cR =
    Some (vec k (if Rle_dec 0 sl then fl else if Rle_dec sr 0 then fr else between)).
  Proof.
    unfold betweenSpeeds. cbv zeta. fold sl sr. destruct (Rle_dec 0 sl) as [H|H]; [reflexivity|].
    destruct (Rle_dec sr 0) as [H'|H']; [reflexivity|].
    rewrite minus_vec. cbn [bind]. rewrite !scale_vec, minus_vec. cbn [bind]. rewrite plus_vec. cbn [bind].
    apply divide_vec. lra.
  Qed.
End Between.

Lemma between_same k q f s c : 0 <= c ->
  betweenSpeeds (vec k q) (vec k q) (vec k f) (vec k f) s s c c = Some (vec k f).
Proof.
  intros Hc. rewrite between_ok. unfold Rmin, Rmax.
  destruct (Rle_dec (s - c) (s - c)), (Rle_dec (s + c) (s + c)); try lra.
  destruct (Rle_dec 0 (s - c)); [reflexivity|]. destruct (Rle_dec (s + c) 0); [reflexivity|].
  f_equal. apply vec_ext. intros i _. unfold between, Rmin, Rmax.
  destruct (Rle_dec (s - c) (s - c)), (Rle_dec (s + c) (s + c)); try lra. field. lra.
Qed.

Lemma min_opp a b : Rmin (- a) (- b) = - Rmax a b.
Proof. unfold Rmin, Rmax. destruct (Rle_dec (- a) (- b)), (Rle_dec a b); lra. Qed.
Lemma max_opp a b : Rmax (- a) (- b) = - Rmin a b.
Proof. unfold Rmin, Rmax. destruct (Rle_dec (- a) (- b)), (Rle_dec a b); lra. Qed.

Lemma between_swap k ql qr fl fr sL sR cL cR : 0 <= cL -> 0 <= cR ->
  (cL = 0 -> cR = 0 -> sL = 0 -> sR = 0 -> forall i, (i < k)%nat -> fl i = fr i) ->
  exists v, betweenSpeeds (vec k ql) (vec k qr) (vec k fl) (vec k fr) sL sR cL cR = Some v /\
    betweenSpeeds (vec k qr) (vec k ql) (vec k (fun i => - fr i)) (vec k (fun i => - fl i)) (- sR) (- sL) cR cL
    = Some (neg v).
Proof.
  intros HL HR H0. eexists. split; [apply between_ok|]. rewrite between_ok. f_equal. rewrite neg_vec.
  assert (E1 : Rmin (- sR - cR) (- sL - cL) = - Rmax (sL + cL) (sR + cR)).
  { rewrite Rmax_comm, <- min_opp. f_equal; ring. }
  assert (E2 : Rmax (- sR + cR) (- sL + cL) = - Rmin (sL - cL) (sR - cR)).
  { rewrite Rmin_comm, <- max_opp. f_equal; ring. }
  unfold between. rewrite E1, E2.
  assert (B1 : Rmin (sL - cL) (sR - cR) <= sL - cL /\ Rmin (sL - cL) (sR - cR) <= sR - cR)
    by (split; [apply Rmin_l|apply Rmin_r]).
  assert (B2 : sL + cL <= Rmax (sL + cL) (sR + cR) /\ sR + cR <= Rmax (sL + cL) (sR + cR))
    by (split; [apply Rmax_l|apply Rmax_r]).
  set (sl := Rmin (sL - cL) (sR - cR)) in *. set (sr := Rmax (sL + cL) (sR + cR)) in *. clearbody sl sr.
  apply vec_ext. intros i Hi.
  destruct (Rle_dec 0 (- sr)) as [A|A], (Rle_dec (- sl) 0) as [B|B], (Rle_dec 0 sl) as [C|C], (Rle_dec sr 0) as [D|D];
    try lra.
  - rewrite (H0 ltac:(lra) ltac:(lra) ltac:(lra) ltac:(lra) i Hi). reflexivity.
  - field. lra.
Qed.

(** all waves of both states go in the direction of the normal *)
Lemma between_upwind k ql qr fl fr sL sR cL cR : cL <= sL -> cR <= sR ->
  betweenSpeeds (vec k ql) (vec k qr) (vec k fl) (vec k fr) sL sR cL cR = Some (vec k fl).
Proof.
  intros HL HR. rewrite between_ok. destruct (Rle_dec 0 (Rmin (sL - cL) (sR - cR))) as [|H]; [reflexivity|].
  exfalso. apply H. apply Rmin_glb; lra.
Qed.

Lemma nth_vec k f i : (i < k)%nat -> nth i (vec k f) 0 = f i.
Proof. intros H. apply nth_error_nth, (get_vec k f i H). Qed.
Lemma between_waves k ql qr fl fr sL sR cL cR :
  exists v, betweenSpeeds (vec k ql) (vec k qr) (vec k fl) (vec k fr) sL sR cL cR = Some v /\
    twoWaves (vec k ql) (vec k qr) (vec k fl) (vec k fr) (Rmin (sL - cL) (sR - cR)) (Rmax (sL + cL) (sR + cR)) v.
Proof.
  rewrite between_ok. eexists. split; [reflexivity|].
  unfold between. set (sl := Rmin (sL - cL) (sR - cR)). set (sr := Rmax (sL + cL) (sR + cR)). clearbody sl sr.
  split; [|split].
  - intros H. destruct (Rle_dec 0 sl); [reflexivity|contradiction].
  - intros H H'. destruct (Rle_dec 0 sl); [lra|]. destruct (Rle_dec sr 0); [reflexivity|contradiction].
  - intros H H'. destruct (Rle_dec 0 sl); [lra|]. destruct (Rle_dec sr 0); [lra|].
    split; [rewrite !vec_length; reflexivity|].
    exists (vec k (fun i => (sr * qr i - sl * ql i + fl i - fr i) / (sr - sl))). intros i Hi. rewrite vec_length in Hi.
    rewrite !nth_vec by exact Hi. split; field; lra.
Qed.

Section Shallow.
  Variables dryLimit epsilon cosine alpha : R.
  Hypothesis Hdry : 0 <= dryLimit.
  Hypothesis Hg : 0 < epsilon * cosine.

  Definition wave (s : state) : R := sqrt (epsilon * cosine * density s).

  Lemma velocity_ok (s : state) c i : velocity dryLimit (density s) (c * momentum s i) = Some (c * speed dryLimit s i).
  Proof.
    unfold velocity, speed. destruct (Rlt_dec dryLimit (density s)) as [H|H].
    - rewrite div_ok by lra. f_equal. unfold Rdiv. ring.
    - f_equal. ring.
  Qed.
  Lemma velocity_one (s : state) i : velocity dryLimit (density s) (momentum s i) = Some (speed dryLimit s i).
  Proof. rewrite <- (Rmult_1_l (momentum s i)), velocity_ok. f_equal. ring. Qed.
  Lemma wave_ok s : 0 <= density s -> root (epsilon * cosine * density s) = Some (wave s).
  Proof. intros H. apply root_ok. apply Rmult_le_pos; lra. Qed.
  Lemma wave_zero s : 0 <= density s -> wave s = 0 -> density s = 0.
  Proof.
    intros H H0. unfold wave in H0. apply sqrt_eq_0 in H0; [|apply Rmult_le_pos; lra].
    apply Rmult_integral in H0. destruct H0; lra.
  Qed.
  Lemma wave_nonneg s : 0 <= wave s.
  Proof. apply sqrt_pos. Qed.

  (** one dimension *)
  Definition flux1 (s : state) (n : R) (i : nat) : R := nth i (shallowPhysical1 dryLimit epsilon cosine alpha s n) 0.
  Definition flux1D := physicalFlux1D dryLimit epsilon cosine alpha.
  Lemma physicalFlux1D_ok s n : 0 <= density s ->
    exists f, flux1D (shallow1 s) = Some f /\ scale n f = vec 2 (flux1 s n).
  Proof.
    intros H. unfold flux1D, physicalFlux1D, shallow1. cbn [get nth_error bind].
    destruct (Rlt_dec (- / 10 ^ 16) (density s)) as [_|Hx].
    2: { exfalso. apply Hx. assert (0 < / 10 ^ 16) by (apply Rinv_0_lt_compat, pow_lt; lra). lra. }
    rewrite velocity_one. cbn [bind]. eexists. split; [reflexivity|]. reflexivity.
  Qed.

  Definition q1 (s : state) (i : nat) : R := nth i (shallow1 s) 0.
  Lemma hllc1D_ok l r n : 0 <= density l -> 0 <= density r ->
    hllc1D dryLimit epsilon cosine flux1D (shallow1 l) (shallow1 r) n =
    betweenSpeeds (vec 2 (q1 l)) (vec 2 (q1 r)) (vec 2 (flux1 l n)) (vec 2 (flux1 r n))
      (n * speed dryLimit l 0) (n * speed dryLimit r 0) (wave l) (wave r).
  Proof.
    intros Hl Hr. destruct (physicalFlux1D_ok l n Hl) as (fl & El & Sl). destruct (physicalFlux1D_ok r n Hr) as (fr & Er & Sr).
    unfold hllc1D. rewrite El, Er.
    cbn [shallow1 get nth_error bind]. rewrite !velocity_ok. cbn [bind]. rewrite !wave_ok by assumption. cbn [bind].
    rewrite Sl, Sr. reflexivity.
  Qed.

  Lemma flux1_opposite s n i : (i < 2)%nat -> flux1 s (- n) i = - flux1 s n i.
  Proof. intros H. unfold flux1, shallowPhysical1. destruct i as [|[|i]]; cbn [nth]; [ring|ring|lia]. Qed.
  Lemma flux1_dry s n : density s = 0 -> momentum s 0 = 0 -> forall i, (i < 2)%nat -> flux1 s n i = 0.
  Proof.
    intros H H' i Hi. unfold flux1, shallowPhysical1, hydrostatic.
    destruct i as [|[|i]]; cbn [nth]; [| |lia]; rewrite H'; [ring|]. rewrite H. ring.
  Qed.

  Lemma hllc1D_same s n : flow s ->
    hllc1D dryLimit epsilon cosine flux1D (shallow1 s) (shallow1 s) n
    = Some (shallowPhysical1 dryLimit epsilon cosine alpha s n).
  Proof. intros (H & _). rewrite hllc1D_ok by assumption. rewrite between_same by apply wave_nonneg. reflexivity. Qed.

  Lemma hllc1D_swap l r n : flow l -> flow r ->
    exists f, hllc1D dryLimit epsilon cosine flux1D (shallow1 l) (shallow1 r) n = Some f /\
      hllc1D dryLimit epsilon cosine flux1D (shallow1 r) (shallow1 l) (- n) = Some (neg f).
  Proof.
    intros (Hl & Ml) (Hr & Mr). rewrite !hllc1D_ok by assumption.
    rewrite (vec_ext 2 (flux1 r (- n)) (fun i => - flux1 r n i)) by (intros; apply flux1_opposite; assumption).
    rewrite (vec_ext 2 (flux1 l (- n)) (fun i => - flux1 l n i)) by (intros; apply flux1_opposite; assumption).
    rewrite !Ropp_mult_distr_l_reverse. apply between_swap; try apply wave_nonneg.
    intros C1 C2 _ _ i Hi. apply wave_zero in C1; [|assumption]. apply wave_zero in C2; [|assumption].
    rewrite !flux1_dry; try assumption; [reflexivity|apply Mr; exact C2|apply Ml; exact C1].
  Qed.

  Lemma hllc1D_upwind l r n : flow l -> flow r -> wave l <= n * speed dryLimit l 0 -> wave r <= n * speed dryLimit r 0 ->
    hllc1D dryLimit epsilon cosine flux1D (shallow1 l) (shallow1 r) n
    = Some (shallowPhysical1 dryLimit epsilon cosine alpha l n).
  Proof. intros (Hl & _) (Hr & _) H H'. rewrite hllc1D_ok by assumption. rewrite between_upwind by assumption. reflexivity. Qed.

  Lemma hllc1D_waves l r n : flow l -> flow r ->
    exists f, hllc1D dryLimit epsilon cosine flux1D (shallow1 l) (shallow1 r) n = Some f /\
      twoWaves (shallow1 l) (shallow1 r) (shallowPhysical1 dryLimit epsilon cosine alpha l n)
        (shallowPhysical1 dryLimit epsilon cosine alpha r n)
        (Rmin (n * speed dryLimit l 0 - wave l) (n * speed dryLimit r 0 - wave r))
        (Rmax (n * speed dryLimit l 0 + wave l) (n * speed dryLimit r 0 + wave r)) f.
  Proof. intros (Hl & _) (Hr & _). rewrite hllc1D_ok by assumption. apply between_waves. Qed.

  (** two dimensions *)
  Definition flux2 (s : state) (nx ny : R) (i : nat) : R := nth i (shallowPhysical2 dryLimit epsilon cosine s nx ny) 0.
  Definition q2 (s : state) (i : nat) : R := nth i (shallow2 s) 0.
  Lemma physicalFlux2D_ok s nx ny : 0 <= density s ->
    exists f, physicalFlux2D dryLimit epsilon cosine (shallow2 s) = Some f /\
      normalFlux2D f [nx; ny] = Some (vec 3 (flux2 s nx ny)).
  Proof.
    intros H. unfold physicalFlux2D, shallow2. cbn [get nth_error bind].
    destruct (Rlt_dec (- / 10 ^ 16) (density s)) as [_|Hx].
    2: { exfalso. apply Hx. assert (0 < / 10 ^ 16) by (apply Rinv_0_lt_compat, pow_lt; lra). lra. }
    rewrite !velocity_one. cbn [bind]. eexists. split; [reflexivity|].
    unfold normalFlux2D. cbn [get nth_error bind]. apply collect_ok. intros i Hi.
    destruct i as [|[|[|i]]]; cbn [Nat.mul Nat.add get nth_error bind]; [| | |lia]; f_equal;
      unfold flux2, shallowPhysical2, hydrostatic; cbn [nth]; try ring.
    unfold speed. destruct (Rlt_dec dryLimit (density s)) as [Hd|Hd]; [|ring]. field. lra.
  Qed.

  Definition speedN (s : state) (nx ny : R) : R := speed dryLimit s 0 * nx + speed dryLimit s 1 * ny.
  Lemma hllc2D_ok l r nx ny : 0 <= density l -> 0 <= density r ->
    hllc2D dryLimit epsilon cosine (shallow2 l) (shallow2 r) [nx; ny] =
    betweenSpeeds (vec 3 (q2 l)) (vec 3 (q2 r)) (vec 3 (flux2 l nx ny)) (vec 3 (flux2 r nx ny))
      (speedN l nx ny) (speedN r nx ny) (wave l) (wave r).
  Proof.
    intros Hl Hr. destruct (physicalFlux2D_ok l nx ny Hl) as (fl & El & Sl).
    destruct (physicalFlux2D_ok r nx ny Hr) as (fr & Er & Sr).
    unfold hllc2D. rewrite El, Er. cbn [shallow2 get nth_error bind]. rewrite !velocity_one. cbn [bind].
    rewrite Sl, Sr. cbn [bind]. rewrite !wave_ok by assumption. reflexivity.
  Qed.

  Lemma flux2_opposite s nx ny i : (i < 3)%nat -> flux2 s (- nx) (- ny) i = - flux2 s nx ny i.
  Proof. intros H. unfold flux2, shallowPhysical2. destruct i as [|[|[|i]]]; cbn [nth]; [ring|ring|ring|lia]. Qed.
  Lemma flux2_dry s nx ny : density s = 0 -> momentum s 0 = 0 /\ momentum s 1 = 0 ->
    forall i, (i < 3)%nat -> flux2 s nx ny i = 0.
  Proof.
    intros H (H' & H'') i Hi. unfold flux2, shallowPhysical2, hydrostatic.
    destruct i as [|[|[|i]]]; cbn [nth]; [| | |lia]; rewrite ?H', ?H'', ?H; ring.
  Qed.
  Lemma speedN_opposite s nx ny : speedN s (- nx) (- ny) = - speedN s nx ny.
  Proof. unfold speedN. ring. Qed.

  Lemma hllc2D_same s nx ny : flow s ->
    hllc2D dryLimit epsilon cosine (shallow2 s) (shallow2 s) [nx; ny]
    = Some (shallowPhysical2 dryLimit epsilon cosine s nx ny).
  Proof. intros (H & _). rewrite hllc2D_ok by assumption. rewrite between_same by apply wave_nonneg. reflexivity. Qed.

  Lemma hllc2D_swap l r nx ny : flow l -> flow r ->
    exists f, hllc2D dryLimit epsilon cosine (shallow2 l) (shallow2 r) [nx; ny] = Some f /\
      hllc2D dryLimit epsilon cosine (shallow2 r) (shallow2 l) [- nx; - ny] = Some (neg f).
  Proof.
    intros (Hl & Ml) (Hr & Mr). rewrite !hllc2D_ok by assumption.
    rewrite (vec_ext 3 (flux2 r (- nx) (- ny)) (fun i => - flux2 r nx ny i)) by (intros; apply flux2_opposite; assumption).
    rewrite (vec_ext 3 (flux2 l (- nx) (- ny)) (fun i => - flux2 l nx ny i)) by (intros; apply flux2_opposite; assumption).
    rewrite !speedN_opposite. apply between_swap; try apply wave_nonneg.
    intros C1 C2 _ _ i Hi. apply wave_zero in C1; [|assumption]. apply wave_zero in C2; [|assumption].
    rewrite !flux2_dry; auto.
  Qed.

  Lemma hllc2D_waves l r nx ny : flow l -> flow r ->
    exists f, hllc2D dryLimit epsilon cosine (shallow2 l) (shallow2 r) [nx; ny] = Some f /\
      twoWaves (shallow2 l) (shallow2 r) (shallowPhysical2 dryLimit epsilon cosine l nx ny)
        (shallowPhysical2 dryLimit epsilon cosine r nx ny)
        (Rmin (speedN l nx ny - wave l) (speedN r nx ny - wave r))
        (Rmax (speedN l nx ny + wave l) (speedN r nx ny + wave r)) f.
  Proof. intros (Hl & _) (Hr & _). rewrite hllc2D_ok by assumption. apply between_waves. Qed.
  Lemma hllc2D_upwind l r nx ny : flow l -> flow r -> wave l <= speedN l nx ny -> wave r <= speedN r nx ny ->
    hllc2D dryLimit epsilon cosine (shallow2 l) (shallow2 r) [nx; ny]
    = Some (shallowPhysical2 dryLimit epsilon cosine l nx ny).
  Proof. intros (Hl & _) (Hr & _) H H'. rewrite hllc2D_ok by assumption. rewrite between_upwind by assumption. reflexivity. Qed.

  Lemma wall2D s nx ny : 0 < density s -> nx * nx + ny * ny = 1 ->
    wallFlux2D dryLimit epsilon cosine (shallow2 s) [nx; ny]
    = hllc2D dryLimit epsilon cosine (shallow2 s) (shallow2 (mirrored s nx ny)) [nx; ny] /\
    exists f, wallFlux2D dryLimit epsilon cosine (shallow2 s) [nx; ny] = Some f /\ nth_error f 0 = Some 0.
  Proof.
    intros Hs Hn. assert (E : wallFlux2D dryLimit epsilon cosine (shallow2 s) [nx; ny]
      = hllc2D dryLimit epsilon cosine (shallow2 s) (shallow2 (mirrored s nx ny)) [nx; ny]).
    { unfold wallFlux2D. cbn [get shallow2 nth_error bind]. rewrite !div_ok by lra. cbn [bind]. cbv zeta.
      apply (f_equal (fun q => hllc2D dryLimit epsilon cosine (shallow2 s) q [nx; ny])).
      unfold shallow2, mirrored. cbn [density momentum Nat.eqb]. apply f_equal2; [reflexivity|].
      apply f_equal2; [field; lra|]. apply f_equal2; [field; lra|reflexivity]. }
    split; [exact E|]. rewrite E.
    assert (Hm : speedN (mirrored s nx ny) nx ny = - speedN s nx ny).
    { unfold speedN, speed, mirrored. cbn [density momentum Nat.eqb]. destruct (Rlt_dec dryLimit (density s)) as [H|H]; [|ring].
      match goal with |- ?x = _ => replace x with
        ((momentum s 0 * nx + momentum s 1 * ny) * (1 - 2 * (nx * nx + ny * ny)) / density s) by (field; lra) end.
      rewrite Hn. field. lra. }
    assert (Hw : 0 < wave s) by (apply sqrt_lt_R0, Rmult_lt_0_compat; assumption).
    assert (W : wave (mirrored s nx ny) = wave s) by reflexivity.
    rewrite hllc2D_ok by (cbn [density mirrored]; lra). rewrite Hm, W.
    set (u := speedN s nx ny). set (c := wave s) in *. rewrite between_ok. eexists. split; [reflexivity|].
    assert (E1 : Rmax (u + c) (- u + c) = - Rmin (u - c) (- u - c)).
    { rewrite Rmin_comm, <- max_opp. f_equal; ring. }
    assert (B : Rmin (u - c) (- u - c) < 0).
    { unfold Rmin. destruct (Rle_dec (u - c) (- u - c)); lra. }
    unfold between. rewrite E1. set (m := Rmin (u - c) (- u - c)) in *. clearbody m.
    destruct (Rle_dec 0 m) as [|_]; [lra|]. destruct (Rle_dec (- m) 0) as [|_]; [lra|].
    cbn [vec seq map nth_error]. f_equal.
    unfold flux2, q2, shallowPhysical2, mirrored, shallow2. cbn [nth density momentum Nat.eqb].
    match goal with |- ?x = 0 => replace x with
      ((momentum s 0 * nx + momentum s 1 * ny) * (m * (1 - (nx * nx + ny * ny))) / m) by (field; lra) end.
    rewrite Hn. field. lra.
  Qed.

  (** local Lax-Friedrichs flux *)
  Definition fastest (s : state) : R :=
    Rmax (Rmax (Rabs (speed dryLimit s 0 + wave s)) (Rabs (speed dryLimit s 0 - wave s)))
         (Rmax (Rabs (speed dryLimit s 1 + wave s)) (Rabs (speed dryLimit s 1 - wave s))).
  Lemma laxFriedrichs_ok l r nx ny : 0 <= density l -> 0 <= density r ->
    laxFriedrichs2D dryLimit epsilon cosine (shallow2 l) (shallow2 r) [nx; ny] =
    Some (vec 3 (fun i => (flux2 l nx ny i + flux2 r nx ny i - (q2 r i - q2 l i) * Rmax (fastest l) (fastest r)) * / 2)).
  Proof.
    intros Hl Hr. destruct (physicalFlux2D_ok l nx ny Hl) as (fl & El & Sl).
    destruct (physicalFlux2D_ok r nx ny Hr) as (fr & Er & Sr).
    unfold laxFriedrichs2D. rewrite El, Er. cbn [get shallow2 nth_error bind]. rewrite !velocity_one. cbn [bind].
    rewrite !wave_ok by assumption. cbn [bind]. cbv zeta. rewrite Sl, Sr. cbn [bind]. rewrite plus_vec. cbn [bind].
    change (shallow2 r) with (vec 3 (q2 r)).
    change (shallow2 l) with (vec 3 (q2 l)).
    rewrite minus_vec. cbn [bind]. rewrite !scale_vec, minus_vec. cbn [bind]. rewrite scale_vec.
    unfold fastest. rewrite <- Rmax_assoc. reflexivity.
  Qed.
  Lemma abs_max x y : 0 <= y -> Rmax (Rabs (x + y)) (Rabs (x - y)) = Rabs x + y.
  Proof.
    intros H. unfold Rmax, Rabs. destruct (Rcase_abs x), (Rcase_abs (x + y)), (Rcase_abs (x - y));
      match goal with |- (if Rle_dec ?a ?b then _ else _) = _ => destruct (Rle_dec a b) end; lra.
  Qed.
  Lemma laxFriedrichs_waves l r nx ny : flow l -> flow r ->
    exists f a, laxFriedrichs2D dryLimit epsilon cosine (shallow2 l) (shallow2 r) [nx; ny] = Some f /\ length f = 3%nat /\
      (forall s i, s = l \/ s = r -> i = 0%nat \/ i = 1%nat -> Rabs (speed dryLimit s i) + wave s <= a) /\
      (exists s i, (s = l \/ s = r) /\ (i = 0%nat \/ i = 1%nat) /\ a = Rabs (speed dryLimit s i) + wave s) /\
      forall i, (i < 3)%nat -> nth i f 0 =
        (nth i (shallowPhysical2 dryLimit epsilon cosine l nx ny) 0 + nth i (shallowPhysical2 dryLimit epsilon cosine r nx ny) 0) / 2
        - a / 2 * (nth i (shallow2 r) 0 - nth i (shallow2 l) 0).
  Proof.
    intros (Hl & _) (Hr & _). rewrite laxFriedrichs_ok by assumption. eexists _, _. split; [reflexivity|].
    split; [reflexivity|]. split; [|split].
    3: { intros i Hi. rewrite nth_vec by exact Hi. unfold flux2, q2. field_simplify. reflexivity. }
    - intros s i Hs Hi. apply Rle_trans with (fastest s).
      + unfold fastest. rewrite !abs_max by apply wave_nonneg. destruct Hi as [-> | ->]; [apply Rmax_l|apply Rmax_r].
      + destruct Hs as [-> | ->]; [apply Rmax_l|apply Rmax_r].
    - assert (K : forall s, exists i, (i = 0%nat \/ i = 1%nat) /\ fastest s = Rabs (speed dryLimit s i) + wave s).
      { intros s. unfold fastest. rewrite !abs_max by apply wave_nonneg.
        match goal with |- context [Rmax ?x ?y] => destruct (Rle_dec x y) as [H|H] end.
        - exists 1%nat. split; [auto|]. apply Rmax_right. exact H.
        - exists 0%nat. split; [auto|]. apply Rmax_left. lra. }
      destruct (Rle_dec (fastest l) (fastest r)) as [H|H].
      + destruct (K r) as (i & Hi & E). exists r, i. split; [auto|]. split; [exact Hi|]. rewrite Rmax_right by exact H. exact E.
      + destruct (K l) as (i & Hi & E). exists l, i. split; [auto|]. split; [exact Hi|]. rewrite Rmax_left by lra. exact E.
  Qed.
  Lemma laxFriedrichs_same s nx ny : flow s ->
    laxFriedrichs2D dryLimit epsilon cosine (shallow2 s) (shallow2 s) [nx; ny]
    = Some (shallowPhysical2 dryLimit epsilon cosine s nx ny).
  Proof.
    intros (H & _). rewrite laxFriedrichs_ok by assumption. f_equal.
    change (shallowPhysical2 dryLimit epsilon cosine s nx ny) with (vec 3 (flux2 s nx ny)).
    apply vec_ext. intros i _. field.
  Qed.
  Lemma laxFriedrichs_swap l r nx ny : flow l -> flow r ->
    exists f, laxFriedrichs2D dryLimit epsilon cosine (shallow2 l) (shallow2 r) [nx; ny] = Some f /\
      laxFriedrichs2D dryLimit epsilon cosine (shallow2 r) (shallow2 l) [- nx; - ny] = Some (neg f).
  Proof.
    intros (Hl & _) (Hr & _). rewrite !laxFriedrichs_ok by assumption. eexists. split; [reflexivity|].
    f_equal. rewrite neg_vec. apply vec_ext. intros i Hi. rewrite !flux2_opposite by exact Hi.
    rewrite (Rmax_comm (fastest r)). ring.
  Qed.
End Shallow.

(** a channel of varying width *)
Section Channel.
  Variables dryLimit epsilon cosine x : R.
  Hypothesis Hdry : 0 <= dryLimit.
  Hypothesis Hg : 0 < epsilon * cosine.
  Hypothesis Hx : 0 < getWidth x.
  Let w := getWidth x.

  Definition fluxW (s : state) (n : R) (i : nat) : R := nth i (channelPhysical dryLimit epsilon cosine w s n) 0.
  Definition waveW (s : state) : R := sqrt (epsilon * cosine * (density s / w)).

  Lemma physicalFluxWidth_ok s n : 0 <= density s ->
    exists f, physicalFluxWidth dryLimit epsilon cosine x (shallow1 s) = Some f /\ scale n f = vec 2 (fluxW s n).
  Proof.
    intros H. unfold physicalFluxWidth. cbv zeta. fold w. cbn [shallow1 get nth_error bind].
    rewrite !div_ok by (unfold w; lra). cbn [bind].
    assert (0 <= density s / w) by (apply Rmult_le_pos; [exact H|left; apply Rinv_0_lt_compat; exact Hx]).
    destruct (Rlt_dec (- / 10 ^ 16) (density s / w)) as [_|Hn].
    2: { exfalso. apply Hn. assert (0 < / 10 ^ 16) by (apply Rinv_0_lt_compat, pow_lt; lra). lra. }
    unfold velocity, channelPhysical. destruct (Rlt_dec dryLimit (density s / w)) as [Hd|Hd].
    - rewrite div_ok by lra. cbn [bind]. eexists. split; [reflexivity|].
      cbn [scale map]. unfold fluxW, channelPhysical. cbv zeta. cbn [vec seq map nth].
      destruct (Rlt_dec dryLimit (density s / w)); [|contradiction].
      assert (density s <> 0). { intros Z. rewrite Z in Hd. unfold Rdiv in Hd. lra. }
      f_equal. f_equal. field. repeat split; try assumption; unfold w; lra.
    - cbn [bind]. eexists. split; [reflexivity|]. cbn [scale map]. unfold fluxW, channelPhysical. cbv zeta.
      cbn [vec seq map nth]. destruct (Rlt_dec dryLimit (density s / w)); [contradiction|].
      f_equal. f_equal. field. unfold w; lra.
  Qed.

  Lemma rootW_ok s : 0 <= density s -> root (epsilon * cosine * (density s / w)) = Some (waveW s).
  Proof.
    intros H. apply root_ok. apply Rmult_le_pos; [lra|].
    apply Rmult_le_pos; [exact H|left; apply Rinv_0_lt_compat; exact Hx].
  Qed.
  Lemma waveW_zero s : 0 <= density s -> waveW s = 0 -> density s = 0.
  Proof.
    intros H H0. assert (0 < / w) by (apply Rinv_0_lt_compat; exact Hx).
    assert (0 <= density s / w) by (apply Rmult_le_pos; lra).
    unfold waveW in H0. apply sqrt_eq_0 in H0; [|apply Rmult_le_pos; lra].
    apply Rmult_integral in H0. destruct H0 as [H0|H0]; [lra|]. apply Rmult_integral in H0. destruct H0; lra.
  Qed.

  Lemma hllcWidth_ok l r n : 0 <= density l -> 0 <= density r ->
    hllcWidth dryLimit epsilon cosine x (shallow1 l) (shallow1 r) n =
    betweenSpeeds (vec 2 (q1 l)) (vec 2 (q1 r)) (vec 2 (fluxW l n)) (vec 2 (fluxW r n))
      (n * speed dryLimit l 0) (n * speed dryLimit r 0) (waveW l) (waveW r).
  Proof.
    intros Hl Hr. destruct (physicalFluxWidth_ok l n Hl) as (fl & El & Sl).
    destruct (physicalFluxWidth_ok r n Hr) as (fr & Er & Sr).
    unfold hllcWidth. cbv zeta. rewrite El, Er. fold w. cbn [shallow1 get nth_error bind].
    rewrite !div_ok by (unfold w; lra). cbn [bind]. rewrite !velocity_ok by exact Hdry. cbn [bind].
    rewrite !rootW_ok by assumption. cbn [bind]. rewrite Sl, Sr. reflexivity.
  Qed.

  Lemma hllcWidth_same s n : flow s ->
    hllcWidth dryLimit epsilon cosine x (shallow1 s) (shallow1 s) n
    = Some (channelPhysical dryLimit epsilon cosine w s n).
  Proof. intros (H & _). rewrite hllcWidth_ok by assumption. rewrite between_same by apply sqrt_pos. reflexivity. Qed.

  Lemma hllcWidth_waves l r n : flow l -> flow r ->
    exists f, hllcWidth dryLimit epsilon cosine x (shallow1 l) (shallow1 r) n = Some f /\
      twoWaves (shallow1 l) (shallow1 r) (channelPhysical dryLimit epsilon cosine w l n)
        (channelPhysical dryLimit epsilon cosine w r n)
        (Rmin (n * speed dryLimit l 0 - waveW l) (n * speed dryLimit r 0 - waveW r))
        (Rmax (n * speed dryLimit l 0 + waveW l) (n * speed dryLimit r 0 + waveW r)) f.
  Proof. intros (Hl & _) (Hr & _). rewrite hllcWidth_ok by assumption. apply between_waves. Qed.

  Lemma fluxW_opposite s n i : (i < 2)%nat -> fluxW s (- n) i = - fluxW s n i.
  Proof. intros H. unfold fluxW, channelPhysical. destruct i as [|[|i]]; cbn [nth]; [ring|ring|lia]. Qed.
  Lemma fluxW_dry s n : density s = 0 -> momentum s 0 = 0 -> forall i, (i < 2)%nat -> fluxW s n i = 0.
  Proof.
    intros H H' i Hi. unfold fluxW, channelPhysical.
    destruct i as [|[|i]]; cbn [nth]; [| |lia]; rewrite H'; [ring|]. rewrite H. unfold Rdiv. ring.
  Qed.

  Lemma hllcWidth_swap l r n : flow l -> flow r ->
    exists f, hllcWidth dryLimit epsilon cosine x (shallow1 l) (shallow1 r) n = Some f /\
      hllcWidth dryLimit epsilon cosine x (shallow1 r) (shallow1 l) (- n) = Some (neg f).
  Proof.
    intros (Hl & Ml) (Hr & Mr). rewrite !hllcWidth_ok by assumption.
    rewrite (vec_ext 2 (fluxW r (- n)) (fun i => - fluxW r n i)) by (intros; apply fluxW_opposite; assumption).
    rewrite (vec_ext 2 (fluxW l (- n)) (fun i => - fluxW l n i)) by (intros; apply fluxW_opposite; assumption).
    rewrite !Ropp_mult_distr_l_reverse. apply between_swap; try apply sqrt_pos.
    intros C1 C2 _ _ i Hi. apply waveW_zero in C1; [|assumption]. apply waveW_zero in C2; [|assumption].
    rewrite !fluxW_dry; try assumption; [reflexivity|apply Mr; exact C2|apply Ml; exact C1].
  Qed.
End Channel.
