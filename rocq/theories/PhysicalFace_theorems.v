(** C57: the caches of a physical face. *)
From Coq Require Import List Arith Lia.
From Verif Require Import Loop_model ElementData_model PhysicalElement_model PhysicalElement_spec PhysicalElementRefuted_proofs
  PhysicalFace_model PhysicalFace_spec PhysicalFace_proofs PhysicalFaceRefuted_proofs.
Import ListNotations.

(** After any history of calls on a new physical face, when the rule in use was set for the
    current face and that has as many functions as the first one, a getter returns what follows
    from the last settings alone.  It also answers whenever there is an answer, except that the
    overloads without unknown and those which use them need the same number of functions for
    all unknowns.  [fine] leaves out what the theorems below refute. *)
Theorem C57_answers_partial : forall (A V P X J D Q M : Type) (zero : A) (mul : A -> A -> A) (vzero : V) (vadd : V -> V -> V)
  (vscale : A -> V -> V) (transposed inverse : J -> J) (determinant : J -> D) (absolute : D -> D)
  (getPoint : Q -> nat -> option P) (mapPoint : M -> P -> P) (l2Norm : V -> V) (divide : V -> V -> V) (negate : V -> V)
  (product : normalKind -> V -> V -> V)
  (m : @memory A V P X J Q M) (h1 : @transformation V J D) (internal : bool) (history : list (@fevent V P J D Q M)) s g,
  frun zero mul vzero vadd vscale transposed determinant getPoint mapPoint l2Norm divide negate product m history (newPhysicalFace h1 internal) = Some s ->
  let c := face_settings_after getPoint h1 history in
  orderly m c -> fine mapPoint m c g ->
  (forall s' a, fget vzero vadd vscale transposed determinant l2Norm divide negate product m g s = Some (s', a) ->
     face_answers vzero vadd vscale transposed inverse determinant absolute getPoint mapPoint l2Norm divide negate product m c g a) /\
  ((needs_even g = true -> even m c) -> forall a,
     face_answers vzero vadd vscale transposed inverse determinant absolute getPoint mapPoint l2Norm divide negate product m c g a ->
     exists s', fget vzero vadd vscale transposed determinant l2Norm divide negate product m g s = Some (s', a)).
Proof. exact @run_answers. Qed.
Print Assumptions C57_answers_partial.

(** two faces between the same elements, the second glued with a rotation; every value is
    asked for before and after the face, the rule and the point changed *)
Definition shared_function (k : kind) (u i : nat) (w : place) : option nat := n_evaluate k 0 i w.
Definition two_elements : n_memory := fun a =>
  match a with 0 => Some (n_element [1; 1] [5; 6] shared_function) | 1 => Some (n_element [1; 1] [7; 8] shared_function) | _ => None end.
Definition long_history : list f_event :=
  [FSet_ (SetTransform n_h1 1); FSet_ (SetFace (inner_face 0 1 0 0 None)); FSet_ (FSetQuadratureRule 0); FSet_ (FSetQuadraturePointIndex 2);
   FGet_ (FaceFunction None Deriv 1); FGet_ (NormalFunction UnitNormal None 1); FGet_ (SideFunction RightSide None Value 0); FGet_ NormalVector; FGet_ RelativeSurfaceArea;
   FGet_ (SideSolution LeftSide false);
   FSet_ (SetFace (inner_face 1 0 0 0 (Some 1))); FGet_ (NormalFunction Normal (Some 1) 0); FGet_ (FaceFunction (Some 1) Deriv 1);
   FSet_ (FSetQuadratureRule 0); FGet_ (FaceFunction (Some 1) Deriv 1); FSet_ (FSetQuadraturePointIndex 1)].
Example C57_answers_nonvacuous :
  let c := f_after n_h1 long_history in
  let glued := inner_face 1 0 0 0 (Some 1) in
  the_face c = Some glued /\ place_on c = Some (AtRule 0 1 glued) /\ orderly two_elements c /\ even two_elements c /\
  alike two_elements c Value 1 /\ plain mapped two_elements c Value LeftSide /\
  f_asked two_elements true long_history (FaceFunction (Some 1) Deriv 0) = Some (FValue 5) /\
  f_asked two_elements true long_history (FaceFunction (Some 1) Deriv 1) = Some (FValue (4 * 5)) /\
  f_asked two_elements true long_history (SideFunction RightSide None Deriv 0) = Some (FValue (4 * 5)) /\
  f_asked two_elements true long_history (NormalFunction Normal (Some 1) 1) = Some (FValue (1 + 500)) /\
  f_asked two_elements true long_history (NormalSideFunction LeftSide UnitNormal None 0) = Some (FValue 22) /\
  f_asked two_elements true long_history (SideSolution LeftSide false) = Some (FSolution [7; 8]) /\
  f_asked two_elements true long_history FPointPhysical = Some (FPhysical 8).
Proof.
  cbv zeta. set (glued := inner_face 1 0 0 0 (Some 1)).
  assert (C : the_face (f_after n_h1 long_history) = Some glued /\ place_on (f_after n_h1 long_history) = Some (AtRule 0 1 glued) /\
    first_face (f_after n_h1 long_history) = Some (inner_face 0 1 0 0 None)) by (split; [reflexivity|split; reflexivity]).
  destruct C as (C1 & C2 & C3). split; [exact C1|]. split; [exact C2|].
  assert (E : forall b e, two_elements b = Some e -> nb (edata e) = [1; 1] /\ forall k u i w, evaluate e k u i w = shared_function k u i w)
    by (intros [|[|b]] e H; [injection H as <-; now split|injection H as <-; now split|discriminate]).
  assert (N : forall f u n, (exists b e, (f = b) /\ two_elements b = Some e) -> (exists e, two_elements f = Some e /\ nth_error (nb (edata e)) u = Some n) <-> nth_error [1; 1] u = Some n).
  { intros f u n (b & e & -> & He). destruct (E b e He) as (Hn & _). rewrite He. rewrite <- Hn. split; [intros (e' & E1 & E2); now injection E1 as <-|intro H; now exists e]. }
  split; [|split; [|split; [|split]]].
  - split.
    + rewrite C2, C1. intros q i f H. injection H as <- <- <-. reflexivity.
    + rewrite C3, C1. intros f f' E1 E2. injection E1 as <-. injection E2 as <-. intros u n. unfold left_number, right_number. cbn [ptrElementLeft ptrElementRight inner_face glued].
      split; (rewrite !N; [tauto| |]); eexists; eexists; split; reflexivity.
  - intros f b e n n' d _ _ He I1 I2. destruct (E b e He) as (Hn & _). rewrite Hn in *. cbn in *. lia.
  - split; [reflexivity|]. intros f b e d _ _ He. destruct (E b e He) as (Hn & Hv). rewrite Hn. split; [reflexivity|]. intros i w. rewrite !Hv. reflexivity.
  - intros f _. split; [discriminate|]. intros b e _ He. destruct (E b e He) as (Hn & Hv). intros u Hu. unfold unknowns in Hu. rewrite Hn in *. cbn in Hu.
    assert (Hc : u = 0 \/ u = 1) by lia. destruct Hc as [-> | ->]; (split; [reflexivity|]); (split; [reflexivity|]); intros i w; rewrite !Hv; reflexivity.
  - repeat split; vm_compute; reflexivity.
Qed.

(** A product with the normal of a function of another unknown is that of a function of
    unknown 0. *)
Theorem C57_normal_unknown_refuted : exists (m : n_memory) history s s' a,
  f_run m history (f_new false) = Some s /\ f_get m (NormalFunction Normal (Some 1) 0) s = Some (s', a) /\
  orderly m (f_after n_h1 history) /\ even m (f_after n_h1 history) /\
  ~ f_answers m (f_after n_h1 history) (NormalFunction Normal (Some 1) 0) a.
Proof.
  destruct normal_unknown as ((s & s' & E1 & E2) & H). exists two_unknowns, normal_history, s, s', (FValue 46). split; [exact E1|]. split; [exact E2|]. split; [|split].
  - split; [intros q i f E; discriminate|]. intros f f' F1 F2. cbn in F1, F2. injection F1 as <-. injection F2 as <-. intros u n. tauto.
  - intros f b e n n' d F Hb He I1 I2. cbn in F. injection F as <-. destruct d; [|discriminate]. cbn in Hb. injection Hb as <-. cbn in He. injection He as <-. cbn in *. lia.
  - intro K. specialize (H _ K). discriminate.
Qed.
Print Assumptions C57_normal_unknown_refuted.

(** The number of functions of the left element is that of the first face. *)
Theorem C57_sizes_refuted : exists (m : n_memory) history s s' a,
  f_run m history (f_new true) = Some s /\ f_get m (FaceFunction (Some 0) Value 1) s = Some (s', a) /\
  ~ f_answers m (f_after n_h1 history) (FaceFunction (Some 0) Value 1) a.
Proof.
  destruct sizes as ((s & s' & E1 & E2) & H). exists two_sizes, sizes_history, s, s', (FValue 43). split; [exact E1|]. split; [exact E2|].
  intro K. specialize (H _ K). discriminate.
Qed.
Print Assumptions C57_sizes_refuted.

(** After another face was set, a point of the rule is still mapped to the element as for the
    face for which the rule was set. *)
Theorem C57_rule_refuted : exists (m : n_memory) history s s' a,
  f_run m history (f_new false) = Some s /\ f_get m (FaceFunction (Some 0) Value 0) s = Some (s', a) /\
  (forall f f', first_face (f_after n_h1 history) = Some f -> the_face (f_after n_h1 history) = Some f' -> same_sizes m f f') /\
  ~ f_answers m (f_after n_h1 history) (FaceFunction (Some 0) Value 0) a.
Proof.
  destruct old_rule as ((s & s' & E1 & E2) & H). exists two_sizes, rule_history, s, s', (FValue 61). split; [exact E1|]. split; [exact E2|]. split.
  - intros f f' F1 F2. cbn in F1, F2. injection F1 as <-. injection F2 as <-. intros u n. unfold left_number, right_number. cbn. tauto.
  - intro K. specialize (H _ K). discriminate.
Qed.
Print Assumptions C57_rule_refuted.

(** On a face with a rotation, the derivative of the solution on the right side is not that
    of its only basis function on the right side, though the coefficient is one. *)
Theorem C57_solution_refuted : exists (m : n_memory) history s s' s'' v v',
  f_run m history (f_new true) = Some s /\
  (forall b e, m b = Some e -> nb (edata e) = [1] /\ ti (edata e) = [[1]]) /\
  f_get m (SideFunction RightSide (Some 0) Deriv 0) s = Some (s', FValue v) /\
  f_get m (SideSolution RightSide true) s = Some (s'', FSolution [v']) /\ v <> v'.
Proof.
  destruct rotated as (s & s' & s'' & v & v' & E1 & E2 & E3 & E4). exists one_function, rotated_history, s, s', s'', v, v'. split; [exact E1|]. split; [|auto].
  intros [|[|b]] e H; [injection H as <-; now split|injection H as <-; now split|discriminate].
Qed.
Print Assumptions C57_solution_refuted.

(** A point cannot be set before a face: the face is read. *)
Theorem C57_point_first_refuted : forall (A V P X J D Q M : Type) (zero : A) (mul : A -> A -> A) (vzero : V)
  (getPoint : Q -> nat -> option P) (mapPoint : M -> P -> P) (m : @memory A V P X J Q M) (h1 : @transformation V J D) internal p,
  fset zero mul vzero getPoint mapPoint m (FSetPointReference p) (newPhysicalFace h1 internal) = None.
Proof. reflexivity. Qed.
Print Assumptions C57_point_first_refuted.
