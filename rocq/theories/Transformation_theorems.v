(** C56: transforming the gradient, the curl and the divergence of a function on the reference element gives the gradient,
    the curl and the divergence of the transformed function on the physical element. *)
From Coq Require Import List Arith Bool Lia Reals Lra.
From Verif Require Import Matrix_model Matrix_spec Determinant_model Determinant_spec RefGeometry_model RefGeometry_spec
  Curvilinear_model PhysMapping_model PhysMapping_spec Transformation_model Transformation_spec Transformation_proofs.
Import ListNotations.
Local Open Scope R_scope.

(** For all elements: straight and curved, and with nodes in any position.  In the tip of a pyramid the mapping has no
    derivatives. *)
Theorem C56_gradient : forall g nodes p x data f u v grad,
  has_mapping g -> regular g p -> are_nodes_of g nodes -> length p = dimension (base g) ->
  mapped g nodes p x data -> scalar_transformed H1Conforming g nodes p f u ->
  is_reference_gradient f p v -> is_gradient_of u x grad ->
  transformDeriv H1Conforming v data = Some grad.
Proof. exact gradient_ok. Qed.
Print Assumptions C56_gradient.

Theorem C56_curl : forall g nodes p x data f u c c',
  has_mapping g -> regular g p -> are_nodes_of g nodes -> length p = dimension (base g) ->
  mapped g nodes p x data -> vector_transformed HCurlConforming g nodes p f u ->
  is_reference_curl f p c -> is_curl_of u x c' ->
  transformCurl HCurlConforming c data = Some c'.
Proof. exact curl_ok. Qed.
Print Assumptions C56_curl.

Theorem C56_divergence : forall g nodes p x data f u c c',
  has_mapping g -> regular g p -> are_nodes_of g nodes -> length p = dimension (base g) ->
  mapped g nodes p x data -> vector_transformed HDivConforming g nodes p f u ->
  is_reference_divergence f p c -> is_divergence_of u x c' ->
  transformDiv HDivConforming c data = Some c'.
Proof. exact div_ok. Qed.
Print Assumptions C56_divergence.

(** The component along the image of a direction [a] of the reference element is the component along [a]: two elements that
    share a side have the same tangential components on it if their reference functions have. *)
Theorem C56_tangential : forall g nodes p x data w v e a,
  has_mapping g -> are_nodes_of g nodes -> length p = dimension (base g) ->
  mapped g nodes p x data -> is_matrix (getJacobian data) (length p) (length p) e -> length w = length p ->
  transform_vector HCurlConforming w data = Some v ->
  total (length p) (fun i => nth i v 0 * total (length p) (fun j => e i j * a j)) = total (length p) (fun i => nth i w 0 * a i).
Proof. exact circulation. Qed.
Print Assumptions C56_tangential.

(** The volume spanned by the value and the images of directions [a 0], [a 1] of the reference element, which is the flux
    through the side they span, is the volume spanned by the reference value and the directions. *)
Theorem C56_flux : forall g nodes p x data w v e (a : nat -> nat -> R),
  has_mapping g -> are_nodes_of g nodes -> length p = dimension (base g) -> (length p <= 3)%nat ->
  mapped g nodes p x data -> is_matrix (getJacobian data) (length p) (length p) e -> length w = length p ->
  transform_vector HDivConforming w data = Some v ->
  leibniz 0 1 Rplus Rmult Ropp (length p)
    (fun i j => match j with O => nth i v 0 | S k => total (length p) (fun l => e i l * a k l) end) =
  leibniz 0 1 Rplus Rmult Ropp (length p) (fun i j => match j with O => nth i w 0 | S k => a k i end).
Proof. exact flux. Qed.
Print Assumptions C56_flux.

(** A quadrilateral that is not a parallelogram, and functions on it. *)
Definition quadrilateral : list point := [[0; 0]; [2; 0]; [0; 1]; [3; 2]].
Lemma quadrilateral_nodes : are_nodes_of (Base Square) quadrilateral.
Proof. split; [reflexivity|]. repeat constructor. Qed.
Lemma quadrilateral_mapped : forall q, close 1 [0; 0] q -> exists x data, mapped (Base Square) quadrilateral q x data /\ length x = 2%nat.
Proof.
  intros q [L C]. destruct q as [|a [|b [|]]]; try discriminate L.
  assert (A := C 0%nat ltac:(cbn; lia)). assert (B := C 1%nat ltac:(cbn; lia)). cbn in A, B.
  apply Rabs_def2 in A, B.
  eexists. eexists. split; [split; [reflexivity|split; [reflexivity|]]|reflexivity].
  cbn. intros E. field_simplify in E. lra.
Qed.
Definition rotation (y : point) : list R := [- nth 1 y 0; nth 0 y 0].
Definition expansion (y : point) : list R := [nth 0 y 0; nth 1 y 0].
Lemma linear_derivatives : forall u x g, (forall y, length y = length x -> u y = total (length x) (fun i => g i * nth i y 0)) ->
  has_derivatives u x g.
Proof.
  intros u x g H eps He. exists 1. split; [lra|]. intros y [L _]. rewrite !H by (try rewrite L; reflexivity).
  replace (_ - _ - _) with 0.
  - rewrite Rabs_R0. apply Rmult_le_pos; [lra|]. replace 0 with (total (length x) (fun _ => 0)).
    + apply total_le. intros. apply Rabs_pos.
    + generalize (length x). intros n. induction n; [reflexivity|rewrite total_S, IHn; ring].
  - generalize (length x). intros n. induction n; [rewrite !total_0; ring|rewrite !total_S].
    match goal with |- 0 = ?s => match type of IHn with 0 = ?s' => transitivity s'; [exact IHn|] end end. ring.
Qed.

Example C56_gradient_nonvacuous : exists data f v,
  has_mapping (Base Square) /\ regular (Base Square) [0; 0] /\ are_nodes_of (Base Square) quadrilateral /\
  mapped (Base Square) quadrilateral [0; 0] [5/4; 3/4] data /\
  scalar_transformed H1Conforming (Base Square) quadrilateral [0; 0] f (fun y => 2 * nth 0 y 0 + 3 * nth 1 y 0) /\
  is_reference_gradient f [0; 0] v /\ is_gradient_of (fun y => 2 * nth 0 y 0 + 3 * nth 1 y 0) [5/4; 3/4] [2; 3] /\
  transformDeriv H1Conforming v data = Some [2; 3].
Proof.
  assert (Rg : regular (Base Square) [0; 0]) by discriminate.
  destruct (quadrilateral_mapped [0; 0] (close_self _ _ Rlt_0_1)) as (x & data & M & _).
  assert (E : x = [5/4; 3/4]).
  { destruct M as [E _]. cbn in E. injection E as <-. list_eq ltac:(field). }
  subst x.
  assert (Gu : is_gradient_of (fun y => 2 * nth 0 y 0 + 3 * nth 1 y 0) [5/4; 3/4] [2; 3]).
  { split; [reflexivity|]. apply linear_derivatives. intros y L. cbn. ring. }
  destruct (gradient_pullback (Base Square) quadrilateral [0; 0] [5/4; 3/4] _ _ 1 I Rg quadrilateral_nodes eq_refl (proj1 M)
    Rlt_0_1 (fun q C => let '(ex_intro _ x (ex_intro _ d (conj m _))) := quadrilateral_mapped q C in ex_intro _ x (ex_intro _ d m)) (proj2 Gu)) as (f & v & T & Rv).
  exists data, f, v. repeat (split; [first [assumption|exact I|exact quadrilateral_nodes]|]).
  exact (C56_gradient (Base Square) quadrilateral [0; 0] [5/4; 3/4] data f _ v _ I Rg quadrilateral_nodes eq_refl M T Rv Gu).
Qed.

Example C56_curl_nonvacuous : exists data f c,
  mapped (Base Square) quadrilateral [0; 0] [5/4; 3/4] data /\
  vector_transformed HCurlConforming (Base Square) quadrilateral [0; 0] f rotation /\
  is_reference_curl f [0; 0] c /\ is_curl_of rotation [5/4; 3/4] [2; 0] /\
  transformCurl HCurlConforming c data = Some [2; 0].
Proof.
  assert (Rg : regular (Base Square) [0; 0]) by discriminate.
  destruct (quadrilateral_mapped [0; 0] (close_self _ _ Rlt_0_1)) as (x & data & M & _).
  assert (E : x = [5/4; 3/4]).
  { destruct M as [E _]. cbn in E. injection E as <-. list_eq ltac:(field). }
  subst x.
  set (D := fun k i : nat => match k, i with O, S O => -1 | S O, O => 1 | _, _ => 0 end).
  assert (Du : has_components rotation [5/4; 3/4] D).
  { intros k Hk. cbn in Hk. apply linear_derivatives. intros y _. destruct k as [|[|]]; [| |lia]; cbn; ring. }
  assert (Cu : is_curl_of rotation [5/4; 3/4] [2; 0]).
  { exists D. split; [exact Du|]. left. split; [reflexivity|]. cbn. f_equal. ring. }
  destruct (curl_pullback (Base Square) quadrilateral [0; 0] [5/4; 3/4] rotation D 1 I Rg quadrilateral_nodes eq_refl (proj1 M)
    Rlt_0_1 (fun q C => let '(ex_intro _ x (ex_intro _ d (conj m _))) := quadrilateral_mapped q C in ex_intro _ x (ex_intro _ d (conj m eq_refl))) Du)
    as (f & Df & T & Dp).
  assert (Cf : is_reference_curl f [0; 0] [Df 1%nat 0%nat - Df 0%nat 1%nat; 0]).
  { exists Df. split; [exact Dp|]. left. split; reflexivity. }
  exists data, f, [Df 1%nat 0%nat - Df 0%nat 1%nat; 0]. repeat (split; [assumption|]).
  exact (C56_curl (Base Square) quadrilateral [0; 0] [5/4; 3/4] data f _ _ _ I Rg quadrilateral_nodes eq_refl M T Cf Cu).
Qed.

Example C56_divergence_nonvacuous : exists data f c,
  mapped (Base Square) quadrilateral [0; 0] [5/4; 3/4] data /\
  vector_transformed HDivConforming (Base Square) quadrilateral [0; 0] f expansion /\
  is_reference_divergence f [0; 0] c /\ is_divergence_of expansion [5/4; 3/4] 2 /\
  transformDiv HDivConforming c data = Some 2.
Proof.
  assert (Rg : regular (Base Square) [0; 0]) by discriminate.
  destruct (quadrilateral_mapped [0; 0] (close_self _ _ Rlt_0_1)) as (x & data & M & _).
  assert (E : x = [5/4; 3/4]).
  { destruct M as [E _]. cbn in E. injection E as <-. list_eq ltac:(field). }
  subst x.
  set (D := fun k i : nat => if (k =? i)%nat then 1 else 0).
  assert (Du : has_components expansion [5/4; 3/4] D).
  { intros k Hk. cbn in Hk. apply linear_derivatives. intros y _. destruct k as [|[|]]; [| |lia]; cbn; ring. }
  assert (Cu : is_divergence_of expansion [5/4; 3/4] 2).
  { exists D. split; [exact Du|]. cbn. ring. }
  destruct (div_pullback (Base Square) quadrilateral [0; 0] [5/4; 3/4] expansion D 1 I Rg quadrilateral_nodes eq_refl (proj1 M)
    Rlt_0_1 (fun q C => let '(ex_intro _ x (ex_intro _ d (conj m _))) := quadrilateral_mapped q C in ex_intro _ x (ex_intro _ d (conj m eq_refl))) Du)
    as (f & Df & T & Dp).
  assert (Cf : is_reference_divergence f [0; 0] (total 2 (fun i => Df i i))).
  { exists Df. split; [exact Dp|reflexivity]. }
  exists data, f, (total 2 (fun i => Df i i)). repeat (split; [assumption|]).
  exact (C56_divergence (Base Square) quadrilateral [0; 0] [5/4; 3/4] data f _ _ _ I Rg quadrilateral_nodes eq_refl M T Cf Cu).
Qed.

(** With the same element: the values (1, 2) and (4, 3) and their components along and across an edge. *)
Example C56_traces_nonvacuous : exists data v w,
  mapped (Base Square) quadrilateral [0; 0] [5/4; 3/4] data /\
  transform_vector HCurlConforming [1; 2] data = Some v /\ transform_vector HDivConforming [4; 3] data = Some w /\
  v = [2/7; 18/7] /\ w = [46/7; 26/7].
Proof.
  eexists. eexists. eexists. split; [split; [|split; [reflexivity|]]|split; [|split; [reflexivity|split]]].
  - cbn. f_equal. list_eq ltac:(field).
  - cbn. lra.
  - unfold transform_vector, solve. cbn -[Rdiv Req_EM_T]. destruct (Req_EM_T _ 0) as [E|_]; [exfalso; cbn in E; lra|reflexivity].
  - cbn. list_eq ltac:(field).
  - cbn. list_eq ltac:(field).
Qed.
