(** C64: the integrals over elements and faces. *)
From Coq Require Import List Arith Bool ZArith Lia Reals Lra.
From Verif Require Import Loop_model Matrix_model ElementData_model PhysicalElement_model PhysicalElement_spec PhysicalElementRefuted_proofs
  PhysicalFace_model PhysicalFace_spec PhysicalFaceRefuted_proofs Integral_model Integral_spec Integral_proofs IntegralFace_proofs.
From Verif Require RefGeometry_model Quadrature_model Quadrature_spec QuadIntegral_proofs Quadrature_theorems.
Import ListNotations.

(** After any use of an ElementIntegral (integrals, transformations, calls on its physical element, changes of the mesh), when
    integrate returns a value, then the rule is one for the element and the value is the sum over the points of the rule of
    weight, Jacobian (if scaled) and integrand.  It depends on the element, the rule, the integrand and the transformations
    alone.  When there is such a sum and the integrand asks for things that are there, integrate returns it. *)
Theorem C64_element : forall (A V P X J D Q M N Y : Type) (zero : A) (mul : A -> A -> A) (vzero : V) (vadd : V -> V -> V) (vscale : A -> V -> V)
  (transposed inverse : J -> J) (determinant : J -> D) (absolute : D -> D) (getPoint : Q -> nat -> option P) (mapPoint : M -> P -> P)
  (getNumberOfPoints : Q -> nat) (weight : Q -> nat -> option N) (one : N) (times : N -> N -> N) (ofDet : D -> N) (scaleBy : N -> Y -> Y) (axpy : N -> Y -> Y -> option Y)
  (elementRule : nat -> option Q) (fits : Q -> nat -> bool)
  (h1 : @transformation V J D) (m0 m : @memory A V P X J Q M) history s scaling a f rule q v,
  (forall x, mul x zero = zero) ->
  operateAll zero mul vzero vadd vscale transposed inverse determinant absolute getPoint mapPoint getNumberOfPoints weight one times ofDet scaleBy axpy
    elementRule fits history (m0, newPhysicalElement h1) = Some (m, s) ->
  match rule with Some q => Some q | None => elementRule a end = Some q ->
  let ts := transforms (after h1 history) in
  let run := integrate zero mul vzero vadd vscale transposed inverse determinant absolute getPoint mapPoint getNumberOfPoints weight one times ofDet scaleBy axpy
    m elementRule fits scaling a f rule s in
  let right := element_integral zero vzero vadd vscale transposed inverse determinant absolute getPoint mapPoint getNumberOfPoints weight one times ofDet scaleBy axpy
    m ts scaling a f q v in
  (forall s', (forall i, i < getNumberOfPoints q -> only (sound_question m (at_point a q ts i)) f) -> run = Some (s', v) -> fits q a = true /\ right) /\
  (m a <> None -> fits q a = true -> (forall i, i < getNumberOfPoints q -> only (sure_question m (at_point a q ts i)) f) -> right -> exists s', run = Some (s', v)).
Proof.
  intros *. intros mul_zero H EQ ts run right. subst run right. apply operations_reach in H. destruct H as (c & R & _ & T & _). subst ts. rewrite <- T. split.
  - intros s' SQ E. eapply integrate_sound; eassumption.
  - intros Ma Ft SQ E. destruct (m a) as [e|] eqn:Me; [|contradiction]. eapply integrate_complete; eassumption.
Qed.
Print Assumptions C64_element.

(** The same for referenceElementIntegral, on the element that was set before. *)
Theorem C64_reference : forall (A V P X J D Q M N Y : Type) (zero : A) (mul : A -> A -> A) (vzero : V) (vadd : V -> V -> V) (vscale : A -> V -> V)
  (transposed inverse : J -> J) (determinant : J -> D) (absolute : D -> D) (getPoint : Q -> nat -> option P) (mapPoint : M -> P -> P)
  (getNumberOfPoints : Q -> nat) (weight : Q -> nat -> option N) (one : N) (times : N -> N -> N) (ofDet : D -> N) (scaleBy : N -> Y -> Y) (axpy : N -> Y -> Y -> option Y)
  (elementRule : nat -> option Q) (fits : Q -> nat -> bool)
  (h1 : @transformation V J D) (m0 m : @memory A V P X J Q M) history s a f q v,
  (forall x, mul x zero = zero) ->
  operateAll zero mul vzero vadd vscale transposed inverse determinant absolute getPoint mapPoint getNumberOfPoints weight one times ofDet scaleBy axpy
    elementRule fits history (m0, newPhysicalElement h1) = Some (m, s) ->
  on (after h1 history) = Some a -> unchanged (after h1 history) = true -> 0 < getNumberOfPoints q ->
  let ts := transforms (after h1 history) in
  let run := referenceElementIntegral zero mul vzero vadd vscale transposed inverse determinant absolute getPoint mapPoint getNumberOfPoints weight scaleBy axpy m q f s in
  let right := reference_integral zero vzero vadd vscale transposed inverse determinant absolute getPoint mapPoint getNumberOfPoints weight scaleBy axpy m ts a f q v in
  (forall s', (forall i, i < getNumberOfPoints q -> only (sound_question m (at_point a q ts i)) f) -> run = Some (s', v) -> right) /\
  (m a <> None -> (forall i, i < getNumberOfPoints q -> only (sure_question m (at_point a q ts i)) f) -> right -> exists s', run = Some (s', v)).
Proof.
  intros *. intros mul_zero H O U Ln ts run right. subst run right. apply operations_reach in H. destruct H as (c & R & O' & T & U'). subst ts. rewrite <- T. rewrite <- O' in O. rewrite <- U' in U. split.
  - intros s' SQ E. eapply reference_sound; eassumption.
  - intros Ma SQ E. destruct (m a) as [e|] eqn:Me; [|contradiction]. eapply reference_complete; eassumption.
Qed.
Print Assumptions C64_reference.

(** After any use of a FaceIntegral on faces with the same numbers of functions, an integral over a face is the sum over the
    points of weight, length of the normal vector (if scaled) and integrand. *)
Theorem C64_face : forall (A V P X J D Q M N Y : Type) (zero : A) (mul : A -> A -> A) (vzero : V) (vadd : V -> V -> V) (vscale : A -> V -> V)
  (transposed inverse : J -> J) (determinant : J -> D) (absolute : D -> D) (getPoint : Q -> nat -> option P) (mapPoint : M -> P -> P)
  (l2Norm : V -> V) (divide : V -> V -> V) (negate : V -> V) (product : normalKind -> V -> V -> V)
  (getNumberOfPoints : Q -> nat) (weight : Q -> nat -> option N) (one : N) (times : N -> N -> N) (ofValue : V -> N) (scaleBy : N -> Y -> Y) (axpy : N -> Y -> Y -> option Y)
  (m : @memory A V P X J Q M) (faceRule : @face V P J M -> option Q) (faceFits : Q -> @face V P J M -> bool)
  (h1 : @transformation V J D) history t scaling f p rule q v,
  operateFaces zero mul vzero vadd vscale transposed determinant getPoint mapPoint l2Norm divide negate product getNumberOfPoints weight one times ofValue scaleBy axpy
    m faceRule faceFits history (newFaceIntegral h1) = Some t ->
  same_functions m history f ->
  match rule with Some q => Some q | None => faceRule f end = Some q -> 0 < getNumberOfPoints q ->
  let ts := face_transforms h1 history in
  let run := integrateFace zero mul vzero vadd vscale transposed determinant getPoint mapPoint l2Norm divide negate product getNumberOfPoints weight one times ofValue scaleBy axpy
    m faceRule faceFits scaling f p rule t in
  let right := face_integral vzero vadd vscale transposed inverse determinant absolute getPoint mapPoint l2Norm divide negate product getNumberOfPoints weight one times ofValue scaleBy axpy
    m ts scaling f p q v in
  (forall t', (forall i, i < getNumberOfPoints q -> only (fine mapPoint m (on_face f f q ts i)) p) -> run = Some (t', v) -> faceFits q f = true /\ right) /\
  (face_present m f -> faceFits q f = true -> (forall i, i < getNumberOfPoints q -> only (sure_face_question mapPoint m (on_face f f q ts i)) p) -> right -> exists t', run = Some (t', v)).
Proof.
  intros *. intros H SF EQ Ln ts run right. subst run right.
  apply (faces_reach zero mul vzero vadd vscale transposed inverse determinant absolute) in H. split.
  - intros t' SQ E. apply (integrateFace_sound zero mul vzero vadd vscale transposed inverse determinant absolute getPoint mapPoint l2Norm divide negate product getNumberOfPoints weight one times ofValue scaleBy axpy m h1 faceRule faceFits _ history t scaling f p rule q t' v); assumption.
  - intros PR Ft SQ E. eapply (integrateFace_complete zero mul vzero vadd vscale transposed inverse determinant absolute); eassumption.
Qed.
Print Assumptions C64_face.

(** When the integrand, times the determinant of the Jacobian if that is used, is a polynomial of a degree that the rule
    integrates, the sum is the integral over the reference element, up to the accuracy of the decimals of the rule. *)
Theorem C64_exact : forall (A V X J M : Type) (zero : A) (vzero : V) (vadd : V -> V -> V) (vscale : A -> V -> V)
  (transposed inverse : J -> J) (determinant : J -> R) (mapPoint : M -> RefGeometry_model.point -> RefGeometry_model.point)
  (m : @memory A V RefGeometry_model.point X J Quadrature_model.rule M) ts (scaling : bool) a e f r F v,
  In r Quadrature_model.registered -> r <> Quadrature_model.T3_7_31 -> r <> Quadrature_model.T3_9_53 ->
  m a = Some e ->
  Quadrature_spec.of_degree (Quadrature_model.forReferenceGeometry r) (Quadrature_model.order r) F ->
  (forall i p y, Quadrature_model.getPoint r i = Some p ->
     yields (right_response zero vzero vadd vscale transposed inverse determinant Rabs Quadrature_model.getPoint mapPoint m (at_point a r ts i)) f y ->
     ((if scaling then Rabs (determinant (calcJacobian e p)) else 1) * y = Quadrature_spec.peval F p)%R) ->
  element_integral zero vzero vadd vscale transposed inverse determinant Rabs Quadrature_model.getPoint mapPoint Quadrature_model.getNumberOfPoints Quadrature_model.weight
    1%R Rmult (fun d => d) Rmult (fun a x y => Some (y + a * x)%R) m ts scaling a f r v ->
  exists w, Quadrature_spec.integral (Quadrature_model.forReferenceGeometry r) (Quadrature_spec.peval F) w /\
  (Rabs (v - w) <= Quadrature_spec.tolerance (Quadrature_model.forReferenceGeometry r) * Quadrature_spec.size F)%R.
Proof.
  intros *. intros I1 I2 I3 Me DG HF (Ln & PA & l & HL & HN & HW).
  destruct (Quadrature_theorems.C39_exact_partial r I1 I2 I3 F DG) as (u & w & Q1 & Q2 & Q3). exists w. split; [exact Q2|]. replace v with u; [exact Q3|].
  assert (W : forall (l : list (R * R)) v, weighted_sum Rmult (fun a x y => Some (y + a * x)%R) l = Some v -> v = fold_left (fun s ay => (s + fst ay * snd ay)%R) l 0%R).
  { clear. intros [|[b y] l] v H; [discriminate|]. cbn in H |- *. assert (E : (0 + b * y = b * y)%R) by ring. rewrite E. clear E. revert H. generalize (b * y)%R. induction l as [|[c z] l IH]; intros s H; cbn in *; [congruence|]. apply IH, H. }
  apply W in HW. subst v.
  assert (G : forall n, n <= length l -> Quadrature_spec.partial_sum r (Quadrature_spec.peval F) n = Some (fold_left (fun s ay => (s + fst ay * snd ay)%R) (firstn n l) 0%R)).
  { induction n as [|n IH]; intros Hn; [reflexivity|]. cbn [Quadrature_spec.partial_sum]. rewrite IH by lia. destruct (nth_error l n) as [[b y]|] eqn:En; [|apply nth_error_None in En; lia].
    destruct (HN _ _ _ En) as (HF1 & HV). destruct HF1 as (wt & Ew & Ef). rewrite Ew.
    destruct (Quadrature_model.getPoint r n) as [p|] eqn:Ep; [|exfalso; apply (PA n); [lia|exact Ep]].
    assert (FS : firstn (S n) l = firstn n l ++ [(b, y)]).
    { clear - En. revert n En. induction l as [|x l IH]; intros [|n] En; try discriminate; cbn in *; [congruence|]. f_equal. apply IH, En. }
    rewrite FS, fold_left_app. cbn [fold_left fst snd]. f_equal. rewrite <- (HF n p y Ep HV). destruct scaling.
    - destruct Ef as (e' & p' & E1 & E2 & ->). rewrite Me in E1. injection E1 as <-. injection E2 as <-. ring.
    - rewrite Ef. ring. }
  unfold Quadrature_spec.quadrature in Q1. rewrite G in Q1 by lia. rewrite <- HL, firstn_all in Q1. congruence.
Qed.
Print Assumptions C64_exact.

(** ** Examples *)
(** two elements; rule [q] has 3 points with the weights 1, 2, 3 *)
Definition i_points (q : nat) : nat := 3.
Definition i_weight (q i : nat) : option Z := if i <? 3 then Some (Z.of_nat i + 1)%Z else None.
Definition i_evaluate (k : kind) (u i : nat) (w : @place nat nat nat) : option nat :=
  Some (3 * u + 2 * i + match w with Point p => p | Rule q i => 10 * q + i | FaceRule q i m => 20 * m + 10 * q + i end).
Definition i_memory : n_memory := fun a =>
  match a with 0 => Some (n_element [1; 1] [5; 6] i_evaluate) | 1 => Some (n_element [2; 2] [1; 2; 3; 4] i_evaluate) | _ => None end.
Definition i_axpy (a x y : Z) : option Z := Some (y + a * x)%Z.
Definition i_integrand : program n_event (option (@answer nat nat nat nat nat nat)) Z :=
  Ask (Get_ (BasisFunctionOf Deriv 1 1)) (fun r => match r with
    | Some (AValue y) => Ask (Get_ GetPointPhysical) (fun r => match r with Some (APhysical x) => Return (Z.of_nat (y + x)) | _ => Fail end)
    | _ => Fail end).
Definition i_first : program n_event (option (@answer nat nat nat nat nat nat)) Z :=
  Ask (Get_ GetResultMatrix) (fun r => match r with
    | Some (AMatrix x) => Ask (FillMatrix (Mat 2 2 [1; 2; 3; 4])) (fun _ => Ask (Get_ (BasisFunction Value 0)) (fun r => match r with Some (AValue y) => Return (Z.of_nat (y + length (data x))) | _ => Fail end))
    | _ => Fail end).
Definition i_operateAll := @operateAll nat nat nat nat nat nat nat nat Z Z 0 Nat.mul 0 Nat.add Nat.mul n_transposed n_inverse n_determinant n_absolute rule_point mapped
  i_points i_weight 1%Z Z.mul Z.of_nat Z.mul i_axpy (fun a => Some a) (fun q a => q <? 5).
Definition i_integrate := @integrate nat nat nat nat nat nat nat nat Z Z 0 Nat.mul 0 Nat.add Nat.mul n_transposed n_inverse n_determinant n_absolute rule_point mapped
  i_points i_weight 1%Z Z.mul Z.of_nat Z.mul i_axpy i_memory (fun a => Some a) (fun q a => q <? 5).
Definition i_reference := @referenceElementIntegral nat nat nat nat nat nat nat nat Z Z 0 Nat.mul 0 Nat.add Nat.mul n_transposed n_inverse n_determinant n_absolute rule_point mapped
  i_points i_weight Z.mul i_axpy i_memory.
Definition i_history : list (@operation nat nat nat nat nat nat nat nat Z) :=
  [Other (Set_ (SetTransformation n_h1 1)); Integrate true 0 i_first None; Integrate false 0 i_first (Some 2);
   Other (Set_ (SetElement 1)); ReferenceIntegral 1 i_integrand].
(** in point p = 10 q + i of the element 1: value 3 + 2 + p times the determinant 2 p + 3, plus p + 7; scaled with 2 p + 7 *)
Example C64_element_nonvacuous : exists s, i_operateAll i_history (i_memory, newPhysicalElement n_h1) = Some (i_memory, s) /\
  option_map snd (i_integrate true 1 i_integrand (Some 1) s) =
    Some (1 * 27 * (15 * 23 + 17) + 2 * 29 * (16 * 25 + 18) + 3 * 31 * (17 * 27 + 19))%Z /\
  option_map snd (i_integrate true 1 i_integrand (Some 5) s) = None /\
  option_map snd (i_reference 2 i_integrand s) = Some (1 * (25 * 43 + 27) + 2 * (26 * 45 + 28) + 3 * (27 * 47 + 29))%Z /\
  on (after n_h1 i_history) = Some 1 /\ unchanged (after n_h1 i_history) = true /\
  forall q i, only (sure_question i_memory (at_point 1 q (transforms (after n_h1 i_history)) i)) i_integrand.
Proof.
  destruct (i_operateAll i_history (i_memory, newPhysicalElement n_h1)) as [[m s]|] eqn:E; [|exfalso; revert E; vm_compute; discriminate].
  assert (Em : m = i_memory) by (revert E; vm_compute; intro E; injection E as <- _; reflexivity). exists s.
  split; [rewrite Em; reflexivity|]. split; [|split; [|split; [|split; [reflexivity|split; [reflexivity|]]]]].
  - assert (H : match i_operateAll i_history (i_memory, newPhysicalElement n_h1) with Some (_, s) => option_map snd (i_integrate true 1 i_integrand (Some 1) s) | None => None end =
      Some (1 * 27 * (15 * 23 + 17) + 2 * 29 * (16 * 25 + 18) + 3 * 31 * (17 * 27 + 19))%Z) by (vm_compute; reflexivity). rewrite E in H. exact H.
  - assert (H : match i_operateAll i_history (i_memory, newPhysicalElement n_h1) with Some (_, s) => option_map snd (i_integrate true 1 i_integrand (Some 5) s) | None => None end = None)
      by (vm_compute; reflexivity). rewrite E in H. exact H.
  - assert (H : match i_operateAll i_history (i_memory, newPhysicalElement n_h1) with Some (_, s) => option_map snd (i_reference 2 i_integrand s) | None => None end =
      Some (1 * (25 * 43 + 27) + 2 * (26 * 45 + 28) + 3 * (27 * 47 + 29))%Z) by (vm_compute; reflexivity). rewrite E in H. exact H.
  - intros q i. unfold i_integrand. apply only_ask; [split; [exact I|split; exact I]|]. intros [[]|]; try apply only_fail. apply only_ask; [split; [exact I|split; exact I]|]. intros [[]|]; try apply only_fail; apply only_return.
Qed.

(** faces between these elements, one of them glued with a rotation, and a face on the boundary *)
Definition j_memory : n_memory := fun a => match a with 0 => Some (n_element [1; 1] [5; 6] i_evaluate) | 1 => Some (n_element [1; 1] [7; 8] i_evaluate) | _ => None end.
Definition j_integrand : program (@fgetter) (@fanswer nat nat nat) Z :=
  Ask (FaceFunction (Some 1) Deriv 1) (fun r => match r with
    | FValue y => Ask NormalVector (fun r => match r with FValue n => Return (Z.of_nat (y + n)) | _ => Fail end)
    | _ => Fail end).
Definition j_boundary : program (@fgetter) (@fanswer nat nat nat) Z := Ask (FaceFunction None Value 0) (fun r => match r with FValue y => Return (Z.of_nat y) | _ => Fail end).
Definition j_operateFaces := @operateFaces nat nat nat nat nat nat nat nat Z Z 0 Nat.mul 0 Nat.add Nat.mul n_transposed n_determinant rule_point mapped f_norm f_divide f_negate f_product
  i_points i_weight 1%Z Z.mul Z.of_nat Z.mul i_axpy j_memory (fun f => Some (ptrElementLeft f)) (fun q f => q <? 5).
Definition j_integrate := @integrateFace nat nat nat nat nat nat nat nat Z Z 0 Nat.mul 0 Nat.add Nat.mul n_transposed n_determinant rule_point mapped f_norm f_divide f_negate f_product
  i_points i_weight 1%Z Z.mul Z.of_nat Z.mul i_axpy j_memory (fun f => Some (ptrElementLeft f)) (fun q f => q <? 5).
Definition j_history : list (@faceOperation nat nat nat nat nat nat nat Z) :=
  [SetFaceTransformation n_h1 1; IntegrateFace true (inner_face 0 1 0 0 None) j_integrand None; IntegrateFace true (boundary_face 1 0 2) j_boundary (Some 2)].
Definition j_face : f_face := inner_face 1 0 2 1 (Some 1).
(** in point p of the face, p + 20 of the right element: value 3 + p + 20 times the determinant 2 (p + 20) + 3, times 4; the normal vector is p, its length p + 1 *)
Example C64_face_nonvacuous : exists t, j_operateFaces j_history (newFaceIntegral n_h1) = Some t /\
  option_map snd (j_integrate true j_face j_integrand (Some 0) t) =
    Some (1 * 1 * (4 * (23 * 43) + 0) + 2 * 2 * (4 * (24 * 45) + 1) + 3 * 3 * (4 * (25 * 47) + 2))%Z /\
  option_map snd (j_integrate true j_face j_integrand (Some 7) t) = None /\
  same_functions j_memory j_history j_face /\ face_present j_memory j_face /\
  forall q i, only (sure_face_question mapped j_memory (on_face j_face j_face q (face_transforms n_h1 j_history) i)) j_integrand.
Proof.
  destruct (j_operateFaces j_history (newFaceIntegral n_h1)) as [t|] eqn:E; [|exfalso; revert E; vm_compute; discriminate]. exists t.
  split; [reflexivity|]. split; [|split; [|split; [|split]]].
  - assert (H : match j_operateFaces j_history (newFaceIntegral n_h1) with Some t => option_map snd (j_integrate true j_face j_integrand (Some 0) t) | None => None end =
      Some (1 * 1 * (4 * (23 * 43) + 0) + 2 * 2 * (4 * (24 * 45) + 1) + 3 * 3 * (4 * (25 * 47) + 2))%Z) by (vm_compute; reflexivity). rewrite E in H. exact H.
  - assert (H : match j_operateFaces j_history (newFaceIntegral n_h1) with Some t => option_map snd (j_integrate true j_face j_integrand (Some 7) t) | None => None end = None)
      by (vm_compute; reflexivity). rewrite E in H. exact H.
  - intros sc f' p r H K. assert (N : forall b e, j_memory b = Some e -> nb (edata e) = [1; 1]) by (intros [|[|b]] e He; [injection He as <-; reflexivity|injection He as <-; reflexivity|discriminate]).
    assert (G : ptrElementLeft f' = 0 /\ ptrElementRight f' = Some 1). { cbn in H. destruct H as [H|[H|[H|[]]]]; [discriminate| |]; injection H as _ <- _ _; [auto|discriminate]. }
    destruct G as (G1 & G2). intros u n. unfold left_number, right_number. rewrite G1, G2. cbn [j_face inner_face ptrElementLeft ptrElementRight].
    split; split; intros (e & He & Hn); rewrite (N _ e He) in Hn; eexists; (split; [reflexivity|exact Hn]).
  - split; [discriminate|]. eexists. split; [reflexivity|]. cbn. eexists. split; [reflexivity|]. cbn. lia.
  - intros q i. unfold j_integrand. apply only_ask; [split; [exact I|discriminate]|]. intros []; try apply only_fail. apply only_ask; [split; [exact I|discriminate]|]. intros []; try apply only_fail; apply only_return.
Qed.

(** a square with |det| = 4, the rule with 4 points, and the integrand x of the point in the element: 4 (x + 1) integrates to 16 *)
Definition e_memory : @memory nat nat (list R) R R Quadrature_model.rule nat := fun a => match a with
  | 0 => Some (Element (ED [] [] [] [] []) (fun _ _ _ _ => None) (fun p => (match p with x :: _ => x | _ => 0 end + 1)%R) (fun _ => (-4)%R)) | _ => None end.
Definition e_integrand : program (@event nat nat (list R) R R R Quadrature_model.rule nat) (option (@answer nat nat (list R) R R R)) R :=
  Ask (Get_ GetPointPhysical) (fun r => match r with Some (APhysical x) => Return x | _ => Fail end).
Example C64_exact_nonvacuous :
  let r := Quadrature_model.Cn2_3_4 in
  let F : Quadrature_spec.polynomial := [(4%R, [1; 0]); (4%R, [0; 0])] in
  In r Quadrature_model.registered /\ r <> Quadrature_model.T3_7_31 /\ r <> Quadrature_model.T3_9_53 /\
  Quadrature_spec.of_degree (Quadrature_model.forReferenceGeometry r) (Quadrature_model.order r) F /\
  (forall i p y, Quadrature_model.getPoint r i = Some p ->
     yields (right_response 0 0 Nat.add Nat.mul (fun j : R => j) (fun j => j) (fun j => j) Rabs Quadrature_model.getPoint (fun (_ : nat) p => p) e_memory (at_point 0 r (fun _ => None) i)) e_integrand y ->
     (Rabs (-4) * y = Quadrature_spec.peval F p)%R) /\
  Quadrature_spec.integral RefGeometry_model.Square (Quadrature_spec.peval F) 16.
Proof.
  cbv zeta. split; [unfold Quadrature_model.registered; cbn [In]; tauto|]. split; [discriminate|]. split; [discriminate|]. split; [repeat constructor; cbn; lia|]. split.
  - intros i p y Hp H. inversion H; subst. destruct H2 as (a & -> & b & e & w & p' & E1 & E2 & E3 & E4 & ->). cbn in E1. injection E1 as <-. cbn in E2. injection E2 as <-. cbn in E3. injection E3 as <-. cbn [point_of] in E4. rewrite Hp in E4. injection E4 as <-.
    inversion H4; subst. assert (L : exists x z, p = [x; z]).
    { destruct (proj1 (Quadrature_theorems.C39_points_complete Quadrature_model.Cn2_3_4 i ltac:(unfold Quadrature_model.registered; cbn [In]; tauto))) as (wt & p' & _ & Ep & Lp).
      - unfold Quadrature_model.getPoint in Hp. destruct (i <? _) eqn:C; [|discriminate]. now apply Nat.ltb_lt.
      - rewrite Hp in Ep. injection Ep as <-. destruct p as [|x [|z [|? ?]]]; try discriminate. eauto. }
    destruct L as (x & z & ->). cbn [Quadrature_spec.peval Quadrature_spec.monomial pow referenceToPhysical]. rewrite Rabs_left by lra. ring.
  - replace 16%R with (QuadIntegral_proofs.pintegral RefGeometry_model.Square [(4%R, [1; 0]); (4%R, [0; 0])]); [|cbn; field]. apply QuadIntegral_proofs.integral_poly. repeat constructor.
Qed.
