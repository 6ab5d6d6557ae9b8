(** Where a physical face gives another answer: concrete histories. *)
From Coq Require Import List Arith Bool.
From Verif Require Import Loop_model Matrix_model ElementData_model PhysicalElement_model PhysicalElement_spec PhysicalElement_proofs
  PhysicalElementRefuted_proofs PhysicalFace_model PhysicalFace_spec PhysicalFace_proofs.
Import ListNotations.

(** the numbers of PhysicalElementRefuted_proofs *)
Definition f_face := @face nat nat nat nat.
Definition f_event := @fevent nat nat nat nat nat nat.
Definition f_norm (v : nat) : nat := v + 1.
Definition f_divide (v w : nat) : nat := 20 * v + w.
Definition f_negate (v : nat) : nat := v + 500.
Definition f_product (k : normalKind) (n v : nat) : nat := n * v.
Definition f_run := @frun nat nat nat nat nat nat nat nat 0 Nat.mul 0 Nat.add Nat.mul n_transposed n_determinant rule_point mapped f_norm f_divide f_negate f_product.
Definition f_get := @fget nat nat nat nat nat nat nat nat 0 Nat.add Nat.mul n_transposed n_determinant f_norm f_divide f_negate f_product.
Definition f_answers := @face_answers nat nat nat nat nat nat nat nat 0 Nat.add Nat.mul n_transposed n_inverse n_determinant n_absolute rule_point mapped f_norm f_divide f_negate f_product.
Definition f_after := @face_settings_after nat nat nat nat nat nat rule_point.
Definition f_new (internal : bool) := @newPhysicalFace nat nat nat nat nat nat nat nat n_h1 internal.
Definition f_asked (m : n_memory) (internal : bool) (h : list f_event) g :=
  s <- f_run m h (f_new internal); option_map snd (f_get m g s).

Lemma f_asked_some : forall m b h g a, f_asked m b h g = Some a -> exists s s', f_run m h (f_new b) = Some s /\ f_get m g s = Some (s', a).
Proof.
  intros m b h g a H. unfold f_asked in H. destruct (f_run m h (f_new b)) as [s|]; [|discriminate]. cbn [bind] in H.
  destruct (f_get m g s) as [[s' a']|] eqn:E; [|discriminate]. injection H as ->. now exists s, s'.
Qed.

(** the specification computes *)
Definition f_side (m : n_memory) (c : @face_settings nat nat nat nat nat nat) (f : f_face) (k : kind) (u : nat) (d : side) (i : nat) : option nat :=
  v <- vdenote n_transposed n_determinant rule_point mapped m (settings_of_side mapped c f d) k u i;
  match d, leftRightTransform f with
  | RightSide, Some (Some j) => t <- by_unknown c u; perform_with n_transposed n_determinant j (t k v)
  | _, _ => Some v
  end.
Lemma f_side_spec : forall m c f k u d i y, side_function n_transposed n_determinant rule_point mapped m c f k u d i y -> f_side m c f k u d i = Some y.
Proof.
  intros m c f k u d i y (b & e & w & p & l & v & H1 & H2 & H3 & H4 & H5 & H6 & H7). unfold f_side.
  assert (E : vdenote n_transposed n_determinant rule_point mapped m (settings_of_side mapped c f d) k u i = Some v) by (apply vdenote_spec; exists b, e, w, p, l; auto 10).
  rewrite E. cbn [bind]. destruct d; [congruence|]. destruct (leftRightTransform f) as [[j|]|]; try congruence. destruct H7 as (t & -> & H7). cbn [bind]. now apply perform_solve.
Qed.
Definition f_function (m : n_memory) (c : @face_settings nat nat nat nat nat nat) (f : f_face) (k : kind) (u i : nat) : option nat :=
  e <- m (ptrElementLeft f); n <- nth_error (nb (edata e)) u; if i <? n then f_side m c f k u LeftSide i else f_side m c f k u RightSide (i - n).
Lemma f_function_spec : forall m c f k u i y, face_function n_transposed n_determinant rule_point mapped m c f k u i y -> f_function m c f k u i = Some y.
Proof.
  intros m c f k u i y (n & (e & E & En) & H). unfold f_function. rewrite E. cbn [bind]. rewrite En. cbn [bind]. destruct (i <? n); now apply f_side_spec.
Qed.

(** basisFunctionNormal(i, unknown) uses the functions of unknown 0 *)
Definition two_unknowns : n_memory := fun a => match a with 0 => Some (n_element [1; 1] [5; 6] n_evaluate) | _ => None end.
Definition boundary_face (element : nat) (map : nat) (normal : nat) : f_face := Face element None map map (fun p => normal) (Some None).
Definition normal_history : list f_event := [FSet_ (SetTransform n_h1 1); FSet_ (SetFace (boundary_face 0 1 2)); FSet_ (FSetPointReference 3)].
Lemma normal_unknown :
  (exists s s', f_run two_unknowns normal_history (f_new false) = Some s /\ f_get two_unknowns (NormalFunction Normal (Some 1) 0) s = Some (s', FValue 46)) /\
  forall a, f_answers two_unknowns (f_after n_h1 normal_history) (NormalFunction Normal (Some 1) 0) a -> a = FValue 246.
Proof.
  split; [apply f_asked_some; vm_compute; reflexivity|].
  intros a (f & w & p & Ef & Ew & Ep & l & y & (n & n' & Hn & Hn' & L & H) & Hy & ->). cbn in Ef. injection Ef as <-.
  destruct (H 0 y Hy) as (n0 & v & b & (e & Ee & En) & (w' & p' & E1 & E2 & ->) & Hb & ->). cbn in Ee. injection Ee as <-. cbn in En. injection En as <-.
  apply f_function_spec in Hb. vm_compute in Hb. injection Hb as <-. reflexivity.
Qed.

(** the numbers of functions of the first face remain in use *)
Definition two_sizes : n_memory := fun a =>
  match a with 0 => Some (n_element [1] [5] n_evaluate) | 1 => Some (n_element [2] [5; 6] n_evaluate) | _ => None end.
Definition inner_face (l r : nat) (mapL mapR : nat) (glue : option nat) : f_face := Face l (Some r) mapL mapR (fun p => p) (Some glue).
Definition sizes_history : list f_event :=
  [FSet_ (SetFace (inner_face 0 0 1 2 None)); FSet_ (FSetPointReference 3); FSet_ (SetFace (inner_face 1 1 1 2 None))].
Lemma sizes :
  (exists s s', f_run two_sizes sizes_history (f_new true) = Some s /\ f_get two_sizes (FaceFunction (Some 0) Value 1) s = Some (s', FValue 43)) /\
  forall a, f_answers two_sizes (f_after n_h1 sizes_history) (FaceFunction (Some 0) Value 1) a -> a = FValue 33.
Proof.
  split; [apply f_asked_some; vm_compute; reflexivity|].
  intros a (f & w & p & Ef & Ew & Ep & y & H & ->). cbn in Ef. injection Ef as <-. apply f_function_spec in H. vm_compute in H. injection H as <-. reflexivity.
Qed.

(** the rule remains that for the previous face *)
Definition rule_history : list f_event :=
  [FSet_ (SetFace (boundary_face 0 1 2)); FSet_ (FSetQuadratureRule 4); FSet_ (SetFace (boundary_face 0 2 2)); FSet_ (FSetQuadraturePointIndex 1)].
Lemma old_rule :
  (exists s s', f_run two_sizes rule_history (f_new false) = Some s /\ f_get two_sizes (FaceFunction (Some 0) Value 0) s = Some (s', FValue 61)) /\
  forall a, f_answers two_sizes (f_after n_h1 rule_history) (FaceFunction (Some 0) Value 0) a -> a = FValue 81.
Proof.
  split; [apply f_asked_some; vm_compute; reflexivity|].
  intros a (f & w & p & Ef & Ew & Ep & y & H & ->). cbn in Ef. injection Ef as <-. apply f_function_spec in H. vm_compute in H. injection H as <-. reflexivity.
Qed.

(** the solution on the right side is not rotated, the functions are *)
Definition one_function : n_memory := fun a => match a with 0 | 1 => Some (n_element [1] [1] n_evaluate) | _ => None end.
Definition rotated_history : list f_event := [FSet_ (SetFace (inner_face 0 1 0 0 (Some 1))); FSet_ (FSetPointReference 1)].
Lemma rotated : exists s s' s'' v v', f_run one_function rotated_history (f_new true) = Some s /\
  f_get one_function (SideFunction RightSide (Some 0) Deriv 0) s = Some (s', FValue v) /\
  f_get one_function (SideSolution RightSide true) s = Some (s'', FSolution [v']) /\ v <> v'.
Proof.
  destruct (f_asked_some one_function true rotated_history (SideFunction RightSide (Some 0) Deriv 0) (FValue 20)) as (s & s' & E1 & E2); [vm_compute; reflexivity|].
  destruct (f_asked_some one_function true rotated_history (SideSolution RightSide true) (FSolution [5])) as (s1 & s'' & E3 & E4); [vm_compute; reflexivity|].
  rewrite E1 in E3. injection E3 as <-. exists s, s', s'', 20, 5. repeat (split; [assumption|]). discriminate.
Qed.
