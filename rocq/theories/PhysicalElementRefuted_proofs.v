From Coq Require Import List Arith Bool ZArith Floats.SpecFloat.
From Verif Require Import Loop_model Matrix_model ElementData_model PhysicalElement_model PhysicalElement_spec.
Import ListNotations.

(** everything is a number; a rule [q] has the points 10 q + i for i < 3, a map [m] adds 20 m *)
Definition rule_point (q i : nat) : option nat := if i <? 3 then Some (10 * q + i) else None.
Definition mapped (m p : nat) : nat := 20 * m + p.
Definition n_transposed (j : nat) : nat := j + 1.
Definition n_inverse (j : nat) : nat := j + 2.
Definition n_determinant (j : nat) : nat := j + 3.
Definition n_absolute (d : nat) : nat := d + 4.
Definition n_memory := @memory nat nat nat nat nat nat nat.
Definition n_event := @event nat nat nat nat nat nat nat nat.
Definition n_transformation := @transformation nat nat nat.
Definition n_run := @run nat nat nat nat nat nat nat nat 0 Nat.mul 0 Nat.add Nat.mul n_transposed n_inverse n_determinant n_absolute rule_point mapped.
Definition n_get := @get nat nat nat nat nat nat nat nat 0 Nat.add Nat.mul n_transposed n_inverse n_determinant n_absolute.
Definition n_answers := @answers nat nat nat nat nat nat nat nat 0 Nat.add Nat.mul n_transposed n_inverse n_determinant n_absolute rule_point mapped.

(** value of a function: 100 times the unknown, 10 times the function, and the place *)
Definition n_evaluate (k : kind) (u i : nat) (w : @place nat nat nat) : option nat :=
  Some (100 * u + 10 * i + match w with
                             | Point p => p
                             | Rule q i => 10 * q + i
                             | FaceRule q i m => 20 * m + 10 * q + i
                             end).
Definition n_element (counts coefficients : list nat) (f : kind -> nat -> nat -> place -> option nat) : @element nat nat nat nat nat nat nat :=
  Element (ED counts [] [coefficients] [] []) f (fun p => p + 7) (fun p => 2 * p).
(** keeps values and multiplies derivatives with the determinant *)
Definition n_h1 : n_transformation := fun k v => match k with Value => Answer v | Deriv => AskDet (fun d => Answer (d * v)) | _ => Error end.
Definition n_other : n_transformation := fun k v => AskTranspose (fun j => AskJacobian (fun j' => Answer (v + 5 * j + j'))).
Definition no_memory : n_memory := fun _ => None.

(** the elements after a history, and the answer to [g] after a history that starts with a
    new physical element *)
Definition memory_after {A} (h : list (@event A nat nat nat nat nat nat nat)) : @memory A nat nat nat nat nat nat :=
  fold_left (fun m o => match o with Change a e => change m a e | _ => m end) h (fun _ => None).
Definition asked (h : list n_event) g :=
  match n_run h (no_memory, newPhysicalElement n_h1) with Some (m, s) => option_map snd (n_get m g s) | None => None end.

Lemma memory_run : forall h w m s, n_run h w = Some (m, s) -> m = fold_left (fun m o => match o with Change a e => change m a e | _ => m end) h (fst w).
Proof.
  unfold n_run. induction h as [|o h IH]; intros w m s H; cbn [run] in H.
  - injection H as ->. reflexivity.
  - destruct (step _ _ _ _ _ _ _ _ _ _ _ o w) as [w'|] eqn:E; [|discriminate]. cbn [bind] in H. apply IH in H. cbn [fold_left].
    rewrite H. f_equal. destruct o; cbn [step] in E.
    + destruct (set _ _ _ _ _ (fst w) o (snd w)); [|discriminate]. now injection E as <-.
    + destruct (get _ _ _ _ _ _ _ (fst w) g (snd w)); [|discriminate]. now injection E as <-.
    + destruct (fillMatrix _ (snd w)); [|discriminate]. now injection E as <-.
    + destruct (fillVector _ (snd w)); [|discriminate]. now injection E as <-.
    + now injection E as <-.
Qed.
Lemma asked_some : forall h g a, asked h g = Some a ->
  exists s s', n_run h (no_memory, newPhysicalElement n_h1) = Some (memory_after h, s) /\ n_get (memory_after h) g s = Some (s', a).
Proof.
  intros h g a H. unfold asked in H. destruct (n_run h _) as [[m s]|] eqn:E; [|discriminate].
  pose proof (memory_run _ _ _ _ E) as Em. cbn [fst] in Em. unfold no_memory in Em. fold (memory_after h) in Em. subst m.
  destruct (n_get (memory_after h) g s) as [[s' a']|] eqn:G; [|discriminate]. cbn in H. injection H as ->. now exists s, s'.
Qed.
Lemma asked_none : forall h g, n_run h (no_memory, newPhysicalElement n_h1) <> None -> asked h g = None ->
  exists s, n_run h (no_memory, newPhysicalElement n_h1) = Some (memory_after h, s) /\ n_get (memory_after h) g s = None.
Proof.
  intros h g N H. unfold asked in H. destruct (n_run h _) as [[m s]|] eqn:E; [|contradiction].
  pose proof (memory_run _ _ _ _ E) as Em. cbn [fst] in Em. unfold no_memory in Em. fold (memory_after h) in Em. subst m.
  exists s. split; [reflexivity|]. destruct (n_get (memory_after h) g s) as [[s' a']|] eqn:G; [discriminate|reflexivity].
Qed.

(** the solution is not computed again after the coefficients of the element changed *)
Lemma stale : 
  let h := [Change 0 (Some (n_element [1] [5] n_evaluate)); Set_ (SetElement 0); Set_ (SetPointReference 3); Get_ GetSolution;
            Change 0 (Some (n_element [1] [6] n_evaluate))] : list n_event in
  (exists s s', n_run h (no_memory, newPhysicalElement n_h1) = Some (memory_after h, s) /\
     n_get (memory_after h) GetSolution s = Some (s', ASolution [15])) /\
  forall a, n_answers (memory_after h) (settings_after n_h1 h) GetSolution a -> a = ASolution [18].
Proof.
  cbv zeta. split; [apply asked_some; vm_compute; reflexivity|].
  intros a H. unfold n_answers, answers in H. destruct H as (b & e & w & p & E1 & E2 & E3 & E4 & H).
  cbn in E1. injection E1 as <-. cbn in E2. injection E2 as <-. cbn in E3. injection E3 as <-. cbn in E4. injection E4 as <-. cbv zeta in H. destruct H as (l & Hl & ->).
  destruct Hl as (L & _ & Hl). cbn in L. destruct l as [|y [|]]; try discriminate. destruct (Hl 0 y eq_refl) as (cs & vs & Hc & Hv & ->).
  destruct Hc as (n & all & En & Ea & Lc & Hc). cbn in En. injection En as <-. cbn in Ea. injection Ea as <-.
  destruct cs as [|c [|]]; try discriminate. specialize (Hc 0 (le_n _)). cbn in Hc. injection Hc as ->.
  destruct Hv as (Lv & Hv). cbn in Lv. injection Lv as Lv. destruct vs as [|v [|]]; try discriminate.
  destruct (Hv 0 v eq_refl) as (v0 & t & Ev & Et & Hs). cbn in Ev. injection Ev as <-. cbn in Et. injection Et as <-. cbn in Hs. inversion Hs. subst. reflexivity.
Qed.

(** the solution of the second unknown is computed with the functions of the first *)
Lemma wrong_functions :
  let h := [Change 0 (Some (n_element [1; 1] [5; 6] n_evaluate)); Set_ (SetTransformation n_h1 1); Set_ (SetElement 0); Set_ (SetPointReference 3)] : list n_event in
  unchanged (settings_after n_h1 h) = true /\ legal (memory_after h) (settings_after n_h1 h) GetSolution /\
  (exists s s', n_run h (no_memory, newPhysicalElement n_h1) = Some (memory_after h, s) /\
     n_get (memory_after h) GetSolution s = Some (s', ASolution [15; 18])) /\
  forall a, n_answers (memory_after h) (settings_after n_h1 h) GetSolution a -> a = ASolution [15; 618].
Proof.
  cbv zeta. split; [reflexivity|]. split.
  { intros b e n n' E1 E2. cbn in E1. injection E1 as <-. cbn in E2. injection E2 as <-. cbn. intros [<-|[<-|[]]] [<-|[<-|[]]]; reflexivity. }
  split; [apply asked_some; vm_compute; reflexivity|].
  intros a H. unfold n_answers, answers in H. destruct H as (b & e & w & p & E1 & E2 & E3 & E4 & H).
  cbn in E1. injection E1 as <-. cbn in E2. injection E2 as <-. cbn in E3. injection E3 as <-. cbn in E4. injection E4 as <-. cbv zeta in H. destruct H as (l & Hl & ->).
  destruct Hl as (L & _ & Hl). cbn in L. destruct l as [|y [|z [|]]]; try discriminate. f_equal. f_equal; [|f_equal].
  - destruct (Hl 0 y eq_refl) as (cs & vs & Hc & Hv & ->).
    destruct Hc as (n & all & En & Ea & Lc & Hc). cbn in En. injection En as <-. cbn in Ea. injection Ea as <-.
    destruct cs as [|c [|]]; try discriminate. specialize (Hc 0 (le_n _)). cbn in Hc. injection Hc as ->.
    destruct Hv as (Lv & Hv). cbn in Lv. injection Lv as Lv. destruct vs as [|v [|]]; try discriminate.
    destruct (Hv 0 v eq_refl) as (v0 & t & Ev & Et & Hs). cbn in Ev. injection Ev as <-. cbn in Et. injection Et as <-. cbn in Hs. inversion Hs. subst. reflexivity.
  - destruct (Hl 1 z eq_refl) as (cs & vs & Hc & Hv & ->).
    destruct Hc as (n & all & En & Ea & Lc & Hc). cbn in En. injection En as <-. cbn in Ea. injection Ea as <-.
    destruct cs as [|c [|]]; try discriminate. specialize (Hc 0 (le_n _)). cbn in Hc. injection Hc as ->.
    destruct Hv as (Lv & Hv). cbn in Lv. injection Lv as Lv. destruct vs as [|v [|]]; try discriminate.
    destruct (Hv 0 v eq_refl) as (v0 & t & Ev & Et & Hs). unfold n_evaluate in Ev. injection Ev as <-. cbn in Et. injection Et as <-. cbn [n_h1] in Hs.
    inversion Hs. subst. vm_compute. reflexivity.
Qed.

(** with different numbers of functions the overload without unknown fails, unless the
    values are already there *)
Lemma uneven :
  let h := [Change 0 (Some (n_element [1; 2] [5; 6; 7] n_evaluate)); Set_ (SetElement 0); Set_ (SetPointReference 3)] : list n_event in
  let h' := h ++ [Get_ (BasisFunctionOf Value 0 0)] in
  (exists s, n_run h (no_memory, newPhysicalElement n_h1) = Some (memory_after h, s) /\ n_get (memory_after h) (BasisFunction Value 0) s = None) /\
  (exists s s', n_run h' (no_memory, newPhysicalElement n_h1) = Some (memory_after h', s) /\
     n_get (memory_after h') (BasisFunction Value 0) s = Some (s', AValue 3)).
Proof.
  cbv zeta. split.
  - apply asked_none; [vm_compute; discriminate|vm_compute; reflexivity].
  - apply asked_some. vm_compute. reflexivity.
Qed.

(** floating point numbers: infinity * 0 is not 0 *)
Definition f_run := @run spec_float nat nat nat nat nat nat nat (S754_zero false) (SFmul 53 1024) 0 Nat.add (fun _ v => v)
  n_transposed n_inverse n_determinant n_absolute rule_point mapped.
Definition f_get := @get spec_float nat nat nat nat nat nat nat 0 Nat.add (fun _ v => v) n_transposed n_inverse n_determinant n_absolute.
Definition f_element : @element spec_float nat nat nat nat nat nat :=
  Element (ED [1] [] [] [] []) n_evaluate (fun p => p + 7) (fun p => 2 * p).
Lemma not_zero :
  match f_run [Change 0 (Some f_element); Set_ (SetElement 0); Set_ (SetPointReference 3); Get_ GetResultMatrix;
     FillMatrix (Mat 1 1 [S754_infinity false]); Set_ (SetPointReference 4)] ((fun _ => None), newPhysicalElement n_h1) with
  | Some (m, s) => option_map snd (f_get m GetResultMatrix s) = Some (AMatrix (Mat 1 1 [S754_nan]))
  | None => False
  end.
Proof. vm_compute. reflexivity. Qed.
