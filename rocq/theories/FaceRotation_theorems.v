(** C58: what is read from the right side of a periodic face is turned to the left side by the rotation that glues the sides. *)
From Coq Require Import List Arith Bool Lia Reals Lra.
From Verif Require Import Matrix_model Matrix_spec Determinant_model Determinant_spec RefGeometry_model RefGeometry_spec RefGeometry_proofs
  Curvilinear_model PhysMapping_model PhysMapping_spec PhysMapping_proofs PhysInverse_proofs
  Transformation_model Transformation_spec Transformation_proofs FaceRotation_model FaceRotation_spec FaceRotation_proofs
  FaceRotationCalculus_proofs.
Import ListNotations.
Local Open Scope R_scope.

Lemma same_matrix : forall d Q Q', (2 <= d <= 3)%nat -> (forall i j, (i < d)%nat -> (j < d)%nat -> Q i j = Q' i j) ->
  matrix_of Q d = matrix_of Q' d /\ matrix_of (transposed Q) d = matrix_of (transposed Q') d.
Proof.
  intros d Q Q' H E. unfold matrix_of, transposed.
  split; f_equal; two_or_three d; cbn; rewrite !E by lia; reflexivity.
Qed.

Lemma glued_update : forall d leftMap rightMap lp rp Q, (2 <= d <= 3)%nat -> is_rotation d Q ->
  glued d leftMap rightMap lp rp Q ->
  exists o, updateLeftRightTransform d true leftMap rightMap = Some o /\ wanted d lp rp Q o.
Proof.
  intros d leftMap rightMap lp rp Q H Rot (Il & Ir & P & M).
  assert (C := rotation_congruent d Q lp rp H Rot M).
  destruct (update_ok d leftMap rightMap lp rp H Il Ir C P) as (Q' & o & Rot' & M' & U & W).
  assert (N : det d (dirs d rp) <> 0).
  { rewrite det_dirs by exact H. rewrite <- (gram_congruent d lp rp) by (try assumption; lia). rewrite <- det_dirs by exact H. apply proper_det; assumption. }
  assert (E := rotation_unique d Q' Q lp rp H Rot' Rot N M' M).
  exists o. split; [exact U|]. destruct o as [data|]; cbn [wanted] in W |- *.
  - destruct W as [W (i & j & Hi & Hj & G)]. destruct (same_matrix d Q' Q H E) as [E1 E2]. rewrite <- E1, <- E2. split; [exact W|].
    exists i, j. rewrite <- E by assumption. split; [exact Hi|]. split; [exact Hj|exact G].
  - destruct W as [W|W]; [left; exact W|right]. intros i j Hi Hj. rewrite <- E by assumption. apply W; assumption.
Qed.

Lemma wanted_data : forall d leftMap rightMap lp rp Q data, (2 <= d <= 3)%nat -> is_rotation d Q ->
  glued d leftMap rightMap lp rp Q -> updateLeftRightTransform d true leftMap rightMap = Some (Some data) -> data = rotation_data d Q.
Proof.
  intros d leftMap rightMap lp rp Q data H Rot G U. destruct (glued_update d leftMap rightMap lp rp Q H Rot G) as (o & U' & W).
  rewrite U in U'. injection U' as <-. apply W.
Qed.

(** If a rotation glues the sides it is found, unless no entry differs from those of the identity by more than 1e-8 or all
    points coincide; nothing is turned in these cases. *)
Theorem C58_rotation : forall d leftMap rightMap lp rp Q, (2 <= d <= 3)%nat -> is_rotation d Q ->
  glued d leftMap rightMap lp rp Q ->
  exists o, updateLeftRightTransform d true leftMap rightMap = Some o /\
  match o with
  | Some data => is_matrix (getJacobian data) d d Q /\
      exists i j, (i < d)%nat /\ (j < d)%nat /\ / 10 ^ 8 < Rabs (Q i j - kronecker i j)
  | None => (forall i, (i < d)%nat -> distance_squared d (nth i lp []) (nth i rp []) < / 10 ^ 24) \/
      forall i j, (i < d)%nat -> (j < d)%nat -> Rabs (Q i j - kronecker i j) <= / 10 ^ 8
  end.
Proof.
  intros d leftMap rightMap lp rp Q H Rot G. destruct (glued_update d leftMap rightMap lp rp Q H Rot G) as (o & U & W).
  exists o. split; [exact U|]. destruct o as [data|]; [|exact W]. destruct W as [-> W]. split; [|exact W].
  apply matrix_of_entries. lia.
Qed.
Print Assumptions C58_rotation.

(** Two sides of the same size and shape are glued by a rotation, so that the assertion in the code does not fail. *)
Theorem C58_congruent : forall d leftMap rightMap lp rp, (2 <= d <= 3)%nat ->
  images d leftMap lp -> images d rightMap rp -> congruent d lp rp -> proper d lp ->
  exists Q, is_rotation d Q /\ glued d leftMap rightMap lp rp Q.
Proof.
  intros d leftMap rightMap lp rp H Il Ir C P. destruct (update_ok d leftMap rightMap lp rp H Il Ir C P) as (Q & o & Rot & M & _ & _).
  exists Q. split; [exact Rot|]. split; [exact Il|]. split; [exact Ir|]. split; [exact P|exact M].
Qed.
Print Assumptions C58_congruent.

(** Nothing is turned on a boundary face, on a face inside of the domain and on a face that is glued by a translation. *)
Theorem C58_translation : forall d leftMap rightMap lp rp (b : nat -> R), (2 <= d <= 3)%nat ->
  images d leftMap lp -> images d rightMap rp -> proper d lp ->
  (forall i k, (i < d)%nat -> (k < d)%nat -> nth k (nth i lp []) 0 = nth k (nth i rp []) 0 + b k) ->
  updateLeftRightTransform d true leftMap rightMap = Some None /\
  updateLeftRightTransform d false leftMap rightMap = Some None.
Proof.
  intros d leftMap rightMap lp rp b H Il Ir P T. split; [|reflexivity].
  assert (Rot : is_rotation d kronecker).
  { split; [|unfold determinant_of; two_or_three d; cbn; ring].
    intros i j Hi Hj. rewrite (total_ext d _ (fun k => kronecker i k * kronecker k j)).
    - rewrite (kronecker_total d i (fun k => kronecker k j)) by assumption. reflexivity.
    - intros k _. unfold kronecker. destruct (Nat.eq_dec k i), (Nat.eq_dec i k); try congruence; ring. }
  destruct (glued_update d leftMap rightMap lp rp kronecker H Rot) as (o & U & W).
  - split; [exact Il|]. split; [exact Ir|]. split; [exact P|]. intros i Hi.
    apply list_by_nth; [rewrite to_left_length; symmetry; apply (proj2 Il i Hi)|]. rewrite to_left_length. intros k Hk.
    unfold to_left. rewrite nth_map_seq by exact Hk. rewrite (kronecker_total d k (fun m => nth m (nth i rp []) 0 - nth m (nth 0 rp []) 0)) by assumption.
    rewrite !T by (try assumption; lia). unfold point. ring.
  - rewrite U. destruct o as [data|]; [|reflexivity]. exfalso. destruct W as [_ (i & j & _ & _ & G)].
    rewrite Rminus_diag_eq, Rabs_R0 in G by reflexivity. assert (S := small_positive 8). lra.
Qed.
Print Assumptions C58_translation.

(** The gradient, values, curl and divergence that are read from the right are those of the function that is carried to the
    left by the rigid motion. *)
Theorem C58_gradient : forall d leftMap rightMap lp rp Q data u x g, (2 <= d <= 3)%nat -> is_rotation d Q ->
  glued d leftMap rightMap lp rp Q -> updateLeftRightTransform d true leftMap rightMap = Some (Some data) ->
  length x = d -> is_gradient_of u x g ->
  exists g', transformDeriv H1Conforming g data = Some g' /\
    is_gradient_of (carried_scalar d Q (nth 0 lp []) (nth 0 rp []) u) (to_left d Q (nth 0 lp []) (nth 0 rp []) x) g'.
Proof.
  intros d leftMap rightMap lp rp Q data u x g H Rot G U L I. rewrite (wanted_data d leftMap rightMap lp rp Q data H Rot G U).
  apply gradient_carried; assumption.
Qed.
Print Assumptions C58_gradient.

Theorem C58_vector : forall d leftMap rightMap lp rp Q data t v, (2 <= d <= 3)%nat -> is_rotation d Q ->
  glued d leftMap rightMap lp rp Q -> updateLeftRightTransform d true leftMap rightMap = Some (Some data) ->
  length v = d -> t = HCurlConforming \/ t = HDivConforming ->
  transform_vector t v data = Some (rotate d Q v).
Proof.
  intros d leftMap rightMap lp rp Q data t v H Rot G U L T. rewrite (wanted_data d leftMap rightMap lp rp Q data H Rot G U).
  apply vector_carried; try assumption. destruct T as [-> | ->]; discriminate.
Qed.
Print Assumptions C58_vector.

Theorem C58_curl : forall d leftMap rightMap lp rp Q data u x c, (2 <= d <= 3)%nat -> is_rotation d Q ->
  glued d leftMap rightMap lp rp Q -> updateLeftRightTransform d true leftMap rightMap = Some (Some data) ->
  length x = d -> is_curl_of u x c ->
  exists c', transformCurl HCurlConforming c data = Some c' /\
    is_curl_of (carried_vector d Q (nth 0 lp []) (nth 0 rp []) u) (to_left d Q (nth 0 lp []) (nth 0 rp []) x) c'.
Proof.
  intros d leftMap rightMap lp rp Q data u x c H Rot G U L I. rewrite (wanted_data d leftMap rightMap lp rp Q data H Rot G U).
  apply curl_carried; assumption.
Qed.
Print Assumptions C58_curl.

Theorem C58_divergence : forall d leftMap rightMap lp rp Q data u x c, (2 <= d <= 3)%nat -> is_rotation d Q ->
  glued d leftMap rightMap lp rp Q -> updateLeftRightTransform d true leftMap rightMap = Some (Some data) ->
  length x = d -> is_divergence_of u x c ->
  exists c', transformDiv HDivConforming c data = Some c' /\
    is_divergence_of (carried_vector d Q (nth 0 lp []) (nth 0 rp []) u) (to_left d Q (nth 0 lp []) (nth 0 rp []) x) c'.
Proof.
  intros d leftMap rightMap lp rp Q data u x c H Rot G U L I. rewrite (wanted_data d leftMap rightMap lp rp Q data H Rot G U).
  apply divergence_carried; assumption.
Qed.
Print Assumptions C58_divergence.

(** ** Examples *)
(** A sector of a cylinder with a quarter turn around the z axis: the right side is in the plane y = 0, the left side in
    the plane x = 0. *)
Definition sector_left (p : point) : option point := Some [0; 1 + nth 0 p 0; nth 1 p 0].
Definition sector_right (p : point) : option point := Some [1 + nth 0 p 0; 0; nth 1 p 0].
Definition quarter_turn (i j : nat) : R :=
  match i, j with O, S O => -1 | S O, O => 1 | S (S O), S (S O) => 1 | _, _ => 0 end.
Definition sector_lp : list point := [[0; 1 + 0; 0]; [0; 1 + 1; 0]; [0; 1 + 0; 1]].
Definition sector_rp : list point := [[1 + 0; 0; 0]; [1 + 1; 0; 0]; [1 + 0; 0; 1]].
Lemma quarter_turn_rotation : is_rotation 3 quarter_turn.
Proof.
  split; [|unfold determinant_of; cbn; ring]. intros i j Hi Hj. rewrite total_3. enum 3%nat i; try lia; enum 3%nat j; try lia; cbn; ring.
Qed.
Lemma sector_glued : glued 3 sector_left sector_right sector_lp sector_rp quarter_turn.
Proof.
  split; [|split; [|split]].
  - split; [reflexivity|]. intros i Hi. enum 3%nat i; try lia; split; reflexivity.
  - split; [reflexivity|]. intros i Hi. enum 3%nat i; try lia; split; reflexivity.
  - intros c E i Hi. assert (E1 := E 1%nat ltac:(lia)). assert (E2 := E 2%nat ltac:(lia)). cbn in E1, E2, Hi.
    enum 2%nat i; try lia; lra.
  - intros i Hi. enum 3%nat i; try lia; cbn; repeat (f_equal; try ring).
Qed.
Example C58_rotation_nonvacuous : exists data,
  updateLeftRightTransform 3 true sector_left sector_right = Some (Some data) /\ is_matrix (getJacobian data) 3 3 quarter_turn /\
  transform_vector HCurlConforming [1; 2; 3] data = Some [-2; 1; 3].
Proof.
  destruct (C58_rotation 3 sector_left sector_right sector_lp sector_rp quarter_turn ltac:(lia) quarter_turn_rotation sector_glued) as (o & U & W).
  destruct o as [data|].
  - exists data. split; [exact U|]. split; [apply W|].
    rewrite (C58_vector 3 sector_left sector_right sector_lp sector_rp quarter_turn data HCurlConforming [1; 2; 3] ltac:(lia) quarter_turn_rotation sector_glued U eq_refl (or_introl eq_refl)).
    unfold rotate. cbn. repeat (f_equal; try ring).
  - exfalso. assert (S : / 10 ^ 8 < 1 /\ / 10 ^ 24 < 1).
    { split; rewrite <- Rinv_1; apply Rinv_lt_contravar; rewrite ?Rmult_1_l; try (apply pow_lt; lra); rewrite <- (pow_O 10); apply Rlt_pow; lra || lia. }
    destruct W as [W|W].
    + assert (G := W 0%nat ltac:(lia)). unfold distance_squared in G. rewrite total_3 in G. cbn [nth sector_lp sector_rp] in G. lra.
    + assert (G := W 0%nat 0%nat ltac:(lia) ltac:(lia)). change (quarter_turn 0 0) with 0 in G. change (kronecker 0 0) with 1 in G.
      rewrite Rabs_minus_sym, Rminus_0_r, Rabs_R1 in G. lra.
Qed.
Lemma sector_data : exists data, updateLeftRightTransform 3 true sector_left sector_right = Some (Some data).
Proof. destruct C58_rotation_nonvacuous as (data & U & _). exists data. exact U. Qed.

Lemma linear_function : forall (g : nat -> R) x, has_derivatives (fun y => total (length x) (fun i => g i * nth i y 0)) x g.
Proof.
  intros g x eps He. exists 1. split; [lra|]. intros y _.
  replace (_ - _ - _) with 0.
  - rewrite Rabs_R0. apply Rmult_le_pos; [lra|]. apply total_nonneg. intros. apply Rabs_pos.
  - generalize (length x). intros n. induction n; [rewrite !total_0; ring|]. rewrite !total_S.
    match type of IHn with _ = ?s => transitivity s; [exact IHn|] end. ring.
Qed.
(** functions with a gradient, a curl and a divergence *)
Example C58_derivatives_nonvacuous :
  is_gradient_of (fun y => total 3 (fun i => INR i * nth i y 0)) [1; 0; 0] [0; 1; 2] /\
  is_curl_of (fun y => [total 3 (fun i => 0 * nth i y 0); total 3 (fun i => INR i * nth i y 0); total 3 (fun i => INR i * nth i y 0)]) [1; 0; 0] [1 - 2; 0 - 0; 0 - 0] /\
  is_divergence_of (fun y => [total 3 (fun i => 0 * nth i y 0); total 3 (fun i => INR i * nth i y 0); total 3 (fun i => INR i * nth i y 0)]) [1; 0; 0] 3.
Proof.
  assert (L := fun g => linear_function g [1; 0; 0]). cbn [length] in L.
  assert (K : has_components (fun y => [total 3 (fun i => 0 * nth i y 0); total 3 (fun i => INR i * nth i y 0); total 3 (fun i => INR i * nth i y 0)]) [1; 0; 0]
    (fun k => match k with O => fun _ => 0 | _ => INR end)).
  { intros k Hk. cbn [length] in Hk. enum 3%nat k; try lia; cbn [nth]; [apply (L (fun _ => 0))|apply (L INR)|apply (L INR)]. }
  split; [|split].
  - split; [reflexivity|]. apply (derivatives_ext (fun y => total 3 (fun i => INR i * nth i y 0)) _ _ INR); [reflexivity| |apply (L INR)].
    intros i Hi. cbn [length] in Hi. enum 3%nat i; try lia; cbn; ring.
  - exists (fun k => match k with O => fun _ => 0 | _ => INR end). split; [exact K|]. right. split; [reflexivity|]. reflexivity.
  - exists (fun k => match k with O => fun _ => 0 | _ => INR end). split; [exact K|]. cbn [length]. rewrite total_3. cbn. ring.
Qed.

Example C58_translation_nonvacuous :
  images 2 (fun p => Some [0; nth 0 p 0]) [[0; 0]; [0; 1]] /\ images 2 (fun p => Some [5; nth 0 p 0]) [[5; 0]; [5; 1]] /\
  proper 2 [[0; 0]; [0; 1]] /\
  (forall i k, (i < 2)%nat -> (k < 2)%nat ->
     nth k (nth i [[0; 0]; [0; 1]] []) 0 = nth k (nth i [[5; 0]; [5; 1]] []) 0 + match k with O => -5 | _ => 0 end).
Proof.
  split; [|split; [|split]].
  - split; [reflexivity|]. intros i Hi. enum 2%nat i; try lia; split; reflexivity.
  - split; [reflexivity|]. intros i Hi. enum 2%nat i; try lia; split; reflexivity.
  - intros c E i Hi. assert (E1 := E 1%nat ltac:(lia)). cbn in E1, Hi. assert (i = 0%nat) by lia. subst i. lra.
  - intros i k Hi Hk. enum 2%nat i; try lia; enum 2%nat k; try lia; cbn; ring.
Qed.

(** ** Sides that are glued with a reflection *)
(** The code means to refuse improper rotations, but its matrix is always a proper one.  In a strip that is closed with a twist
    the right side x = 1 is glued to the left side x = 0 with the y axis reversed: the rigid motion that puts the right element
    next to the left one is a reflection.  The code turns by 180 degrees instead, and the derivatives along the strip
    have the wrong sign. *)
Theorem C58_reflection_refuted : ~ forall d leftMap rightMap lp rp Q data pl pr u x g g', (2 <= d <= 3)%nat -> orthogonal d Q ->
  glued d leftMap rightMap lp rp Q ->
  side d lp pl * side d lp (to_left d Q (nth 0 lp []) (nth 0 rp []) pr) < 0 ->
  updateLeftRightTransform d true leftMap rightMap = Some (Some data) ->
  length x = d -> is_gradient_of u x g -> transformDeriv H1Conforming g data = Some g' ->
  is_gradient_of (carried_scalar d Q (nth 0 lp []) (nth 0 rp []) u) (to_left d Q (nth 0 lp []) (nth 0 rp []) x) g'.
Proof.
  intros F.
  set (lm := fun p : point => Some [0; nth 0 p 0]). set (rm := fun p : point => Some [1; - nth 0 p 0]).
  set (lp := [[0; 0]; [0; 1]]). set (rp := [[1; - 0]; [1; - (1)]]).
  set (mirror := fun i j : nat => match i, j with O, O => 1 | S O, S O => -1 | _, _ => 0 end).
  set (half := fun i j : nat => match i, j with O, O => -1 | S O, S O => -1 | _, _ => 0 end).
  assert (Il : images 2 lm lp) by (split; [reflexivity|intros i Hi; enum 2%nat i; try lia; split; reflexivity]).
  assert (Ir : images 2 rm rp) by (split; [reflexivity|intros i Hi; enum 2%nat i; try lia; split; reflexivity]).
  assert (P : proper 2 lp) by (intros c E i Hi; assert (E1 := E 1%nat ltac:(lia)); cbn in E1, Hi; assert (i = 0%nat) by lia; subst i; lra).
  assert (Om : orthogonal 2 mirror) by (intros i j Hi Hj; rewrite total_2; enum 2%nat i; try lia; enum 2%nat j; try lia; cbn; ring).
  assert (Rh : is_rotation 2 half).
  { split; [|unfold determinant_of; cbn; ring]. intros i j Hi Hj; rewrite total_2; enum 2%nat i; try lia; enum 2%nat j; try lia; cbn; ring. }
  assert (Gm : glued 2 lm rm lp rp mirror).
  { split; [exact Il|]. split; [exact Ir|]. split; [exact P|]. intros i Hi. enum 2%nat i; try lia; cbn; repeat (f_equal; try ring). }
  assert (Gh : glued 2 lm rm lp rp half).
  { split; [exact Il|]. split; [exact Ir|]. split; [exact P|]. intros i Hi. enum 2%nat i; try lia; cbn; repeat (f_equal; try ring). }
  destruct (C58_rotation 2 lm rm lp rp half ltac:(lia) Rh Gh) as (o & U & W).
  destruct o as [data|].
  - assert (Gr : is_gradient_of (fun y => total 2 (fun i => (match i with O => 1 | _ => 0 end) * nth i y 0)) [1; 0] [1; 0]).
    { split; [reflexivity|].
      apply (derivatives_ext (fun y => total 2 (fun i => (match i with O => 1 | _ => 0 end) * nth i y 0)) _ _ (fun i => match i with O => 1 | _ => 0 end));
        [reflexivity| |apply (linear_function (fun i => match i with O => 1 | _ => 0 end) [1; 0])].
      intros i Hi. cbn [length] in Hi. enum 2%nat i; try lia; reflexivity. }
    destruct (C58_gradient 2 lm rm lp rp half data _ [1; 0] [1; 0] ltac:(lia) Rh Gh U eq_refl Gr) as (g' & T & K).
    assert (G' : g' = [-1; 0]).
    { rewrite (wanted_data 2 lm rm lp rp half data ltac:(lia) Rh Gh U) in T. cbn [transformDeriv rotation_data getTransposeJacobian] in T.
      rewrite (solve_rotation 2 half [1; 0] ltac:(lia) Rh eq_refl) in T. injection T as <-. unfold rotate. cbn. repeat (f_equal; try ring). }
    assert (B := F 2%nat lm rm lp rp mirror data [1; 0] [0; 0] _ [1; 0] [1; 0] g' ltac:(lia) Om Gm ltac:(cbn; lra) U eq_refl Gr T).
    destruct B as [_ B]. subst g'.
    destruct (B (/ 2) ltac:(lra)) as (delta & Dp & C).
    assert (Cl : close delta (to_left 2 mirror (nth 0 lp []) (nth 0 rp []) [1; 0]) [delta / 2; 0]).
    { split; [reflexivity|]. intros i Hi. cbn [length to_left seq map] in Hi. enum 2%nat i; try lia; cbn; rewrite Rabs_right; lra. }
    specialize (C _ Cl). rewrite to_left_length in C. rewrite !total_2 in C.
    unfold carried_scalar, to_right, to_left in C. cbn in C.
    match type of C with Rabs ?a <= _ * (Rabs ?b + Rabs ?c) =>
      replace a with (delta) in C by field; replace b with (delta / 2) in C by field; replace c with 0 in C by field end.
    rewrite Rabs_R0 in C. rewrite !Rabs_right in C by lra. lra.
  - assert (S : / 10 ^ 8 < 1 /\ / 10 ^ 24 < 1).
    { split; rewrite <- Rinv_1; apply Rinv_lt_contravar; rewrite ?Rmult_1_l; try (apply pow_lt; lra); rewrite <- (pow_O 10); apply Rlt_pow; lra || lia. }
    destruct W as [W|W].
    + assert (G := W 0%nat ltac:(lia)). unfold distance_squared in G. rewrite total_2 in G. cbn [nth lp rp] in G. lra.
    + assert (G := W 0%nat 0%nat ltac:(lia) ltac:(lia)). change (half 0%nat 0%nat) with (-1) in G. change (kronecker 0 0) with 1 in G.
      rewrite Rabs_left in G by lra. lra.
Qed.
Print Assumptions C58_reflection_refuted.
