From Coq Require Import List Arith Bool Lia Ring.
From Verif Require Import Tableau_model TimeStep_model TimeStep_spec.
Import ListNotations.

Lemma each_inv : forall {X M} (P : list X -> M -> Prop) (body : X -> M -> option M) l m,
  P [] m ->
  (forall pre x post m, l = pre ++ x :: post -> P pre m -> exists m', body x m = Some m' /\ P (pre ++ [x]) m') ->
  exists m', each l body m = Some m' /\ P l m'.
Proof.
  intros X M P body l m H0 HS.
  assert (K : forall post pre m, l = pre ++ post -> P pre m -> exists m', each post body m = Some m' /\ P l m').
  { induction post as [|x post IH]; intros pre m0 E HP.
    - exists m0. rewrite app_nil_r in E. subst. auto.
    - destruct (HS pre x post m0 E HP) as (m' & Hb & HP').
      cbn [each]. rewrite Hb. apply (IH (pre ++ [x])); [rewrite <- app_assoc; exact E|exact HP']. }
  apply (K l []); auto.
Qed.

Lemma mset_same : forall {A} (m : @memory A) id e v, mset m id e v id e = v.
Proof. intros. unfold mset. rewrite !Nat.eqb_refl. reflexivity. Qed.
Lemma mset_id : forall {A} (m : @memory A) id e v id' e', id' <> id -> mset m id e v id' e' = m id' e'.
Proof. intros. unfold mset. apply Nat.eqb_neq in H. rewrite H. reflexivity. Qed.
Lemma mset_el : forall {A} (m : @memory A) id e v id' e', e' <> e -> mset m id e v id' e' = m id' e'.
Proof. intros. unfold mset. apply Nat.eqb_neq in H. rewrite H, andb_false_r. reflexivity. Qed.

Lemma firstn_seq : forall z k st, k <= z -> firstn k (seq st z) = seq st k.
Proof.
  induction z as [|z IH]; intros [|k] st H; cbn; try reflexivity; try lia. f_equal. apply IH. lia.
Qed.

Section S.
Context {A : Type}.
Variables (zero one : A) (add mul sub : A -> A -> A) (opp : A -> A).
Variable Rth : ring_theory zero one add mul sub opp (@eq A).
Add Ring Aring : Rth.

Local Notation vplus := (vplus add).
Local Notation vtimes := (vtimes mul).
Local Notation lincomb := (lincomb add mul).

Lemma vplus_length : forall v w : list A, length v = length w -> length (vplus v w) = length v.
Proof. intros. unfold TimeStep_spec.vplus. rewrite map_length, combine_length. lia. Qed.
Lemma vtimes_length : forall s (v : list A), length (vtimes s v) = length v.
Proof. intros. apply map_length. Qed.

Lemma vplusEq_ok : forall y x : list A, length x = length y -> vplusEq add y x = Some (vplus y x).
Proof. intros. unfold vplusEq. rewrite H, Nat.eqb_refl. reflexivity. Qed.
Lemma axpy_ok : forall s (x y : list A), length x = length y ->
  axpy add mul s x y = Some (vplus y (vtimes s x)).
Proof.
  intros s x y H. unfold axpy. rewrite H, Nat.eqb_refl. f_equal.
  unfold TimeStep_spec.vplus, TimeStep_spec.vtimes. revert y H.
  induction x as [|a x IH]; intros [|b y] H; cbn in *; try discriminate; auto.
  f_equal. apply IH. lia.
Qed.
Lemma vscale_one : forall v : list A, vscale mul one v = v.
Proof.
  intros. unfold vscale. rewrite <- (map_id v) at 2. apply map_ext. intros. ring.
Qed.

Lemma lincomb_length : forall terms u n, length u = n -> (forall p, In p terms -> length (snd p) = n) ->
  length (lincomb u terms) = n.
Proof.
  induction terms as [|p l IH]; intros u n Hu H; [exact Hu|]. cbn.
  apply IH; [|intros; apply H; right; assumption].
  rewrite vplus_length; [exact Hu|]. rewrite vtimes_length, (H p); cbn; auto.
Qed.

Lemma lincomb_app : forall l1 l2 u, lincomb u (l1 ++ l2) = lincomb (lincomb u l1) l2.
Proof. intros. unfold TimeStep_spec.lincomb. apply fold_left_app. Qed.

(** entries *)
Lemma vplus_nth : forall (v w : list A) i, length v = length w ->
  nth i (vplus v w) zero = add (nth i v zero) (nth i w zero).
Proof.
  induction v as [|a v IH]; intros [|b w] i H; cbn in H; try discriminate.
  - destruct i; cbn; ring.
  - destruct i; cbn; [reflexivity|]. apply IH. lia.
Qed.
Lemma vtimes_nth : forall s (v : list A) i, nth i (vtimes s v) zero = mul s (nth i v zero).
Proof.
  intros s v i. unfold TimeStep_spec.vtimes.
  replace zero with (mul s zero) at 1 by ring. apply map_nth.
Qed.
Definition lsum (l : list A) : A := fold_right add zero l.
Lemma lincomb_nth : forall terms (u : list A) i n, length u = n -> (forall p, In p terms -> length (snd p) = n) ->
  nth i (lincomb u terms) zero = add (nth i u zero) (lsum (map (fun p => mul (fst p) (nth i (snd p) zero)) terms)).
Proof.
  induction terms as [|p l IH]; intros u i n Hu H.
  - cbn. ring.
  - assert (L : length u = length (vtimes (fst p) (snd p))).
    { rewrite vtimes_length, (H p); cbn; auto. }
    cbn [TimeStep_spec.lincomb fold_left map lsum fold_right].
    change (nth i (lincomb (vplus u (vtimes (fst p) (snd p))) l) zero = add (nth i u zero)
      (add (mul (fst p) (nth i (snd p) zero)) (lsum (map (fun p => mul (fst p) (nth i (snd p) zero)) l)))).
    rewrite (IH _ i n).
    + rewrite vplus_nth by exact L. rewrite vtimes_nth. ring.
    + rewrite vplus_length; assumption.
    + intros; apply H; right; assumption.
Qed.

Lemma lincomb_undo : forall (js : list nat) (u : list A) (c : nat -> A) dt (k : nat -> list A) n,
  length u = n -> (forall j, In j js -> length (k j) = n) ->
  lincomb (lincomb u (map (fun j => (mul dt (c j), k j)) js)) (map (fun j => (mul (opp dt) (c j), k j)) js) = u.
Proof.
  intros js u c dt k n Hu Hk.
  assert (L1 : forall x p, In p (map (fun j => (mul x (c j), k j)) js) -> length (snd p) = n).
  { intros x p H. apply in_map_iff in H as (j & <- & Hj). apply Hk, Hj. }
  assert (L2 := lincomb_length _ u n Hu (L1 dt)).
  apply nth_ext with (d := zero) (d' := zero).
  - rewrite (lincomb_length _ _ n L2 (L1 (opp dt))). auto.
  - intros i _. rewrite (lincomb_nth _ _ i n L2 (L1 (opp dt))), (lincomb_nth _ _ i n Hu (L1 dt)).
    assert (Z : forall l, add (lsum (map (fun p => mul (fst p) (nth i (snd p) zero)) (map (fun j => (mul dt (c j), k j)) l)))
                  (lsum (map (fun p => mul (fst p) (nth i (snd p) zero)) (map (fun j => (mul (opp dt) (c j), k j)) l))) = zero).
    { induction l as [|j l IH]; cbn [map lsum fold_right fst snd]; [ring|].
      fold (lsum (map (fun p => mul (fst p) (nth i (snd p) zero)) (map (fun j => (mul dt (c j), k j)) l))).
      fold (lsum (map (fun p => mul (fst p) (nth i (snd p) zero)) (map (fun j => (mul (opp dt) (c j), k j)) l))).
      transitivity (add (lsum (map (fun p => mul (fst p) (nth i (snd p) zero)) (map (fun j => (mul dt (c j), k j)) l)))
                  (lsum (map (fun p => mul (fst p) (nth i (snd p) zero)) (map (fun j => (mul (opp dt) (c j), k j)) l)))); [ring|exact IH]. }
    specialize (Z js).
    match goal with |- add (add ?u ?x) ?y = _ => transitivity (add u (add x y)); [ring|] end.
    rewrite Z. ring.
Qed.

Section Mesh.
Variables (app : @Application A) (elements : list nat) (faces : list Face) (both : bool) (n : nat -> nat).
Hypothesis Ok : consistent app elements faces n.
Local Notation face_terms := (face_terms app both).
Local Notation right_hand_side := (right_hand_side add app faces both).
Local Notation derivative := (derivative add app faces both).

Lemma face_terms_ext : forall t u v e f, In f faces -> (forall e, In e elements -> u e = v e) ->
  face_terms t u e f = face_terms t v e f.
Proof.
  intros t u v e f If H. unfold TimeStep_spec.face_terms.
  rewrite (H _ (left_listed _ _ _ _ Ok f If)).
  destruct (ptrElementRight f) as [r|] eqn:E; [|reflexivity].
  rewrite (H _ (right_listed _ _ _ _ Ok f r If E)). reflexivity.
Qed.

Lemma flat_map_ext_in : forall {X Y} (g h : X -> list Y) l, (forall x, In x l -> g x = h x) -> flat_map g l = flat_map h l.
Proof.
  induction l as [|x l IH]; intros H; [reflexivity|]. cbn. rewrite (H x), IH; cbn; auto.
  intros; apply H; cbn; auto.
Qed.

Lemma derivative_ext : forall t u v e, In e elements -> (forall e, In e elements -> u e = v e) ->
  derivative t u e = derivative t v e.
Proof.
  intros t u v e He H. unfold TimeStep_spec.derivative, TimeStep_spec.right_hand_side.
  rewrite (H e He). do 2 f_equal. apply flat_map_ext_in. intros f If. apply face_terms_ext; assumption.
Qed.

Lemma face_terms_size : forall t u e f v, In f faces -> (forall e, In e elements -> length (u e) = n e) ->
  In v (face_terms t u e f) -> length v = n e.
Proof.
  intros t u e f v If Hu Iv. unfold TimeStep_spec.face_terms in Iv.
  pose proof (Hu _ (left_listed _ _ _ _ Ok f If)) as HL.
  destruct (ptrElementRight f) as [r|] eqn:E.
  - pose proof (Hu _ (right_listed _ _ _ _ Ok f r If E)) as HR.
    destruct (face_size _ _ _ _ Ok f r _ _ t If E HL HR) as (F1 & F2 & F3 & F4).
    apply in_app_iff in Iv as [Iv|Iv].
    + destruct (Nat.eqb_spec (ptrElementLeft f) e) as [<-|]; [|contradiction].
      destruct Iv as [<-|[]]. destruct both; assumption.
    + destruct (Nat.eqb_spec r e) as [<-|]; [|contradiction].
      destruct Iv as [<-|[]]. destruct both; assumption.
  - destruct (Nat.eqb_spec (ptrElementLeft f) e) as [<-|]; [|contradiction].
    destruct Iv as [<-|[]]. apply (boundary_size _ _ _ _ Ok); assumption.
Qed.

Lemma fold_vplus_length : forall vs (u : list A) k, length u = k -> (forall v, In v vs -> length v = k) ->
  length (fold_left vplus vs u) = k.
Proof.
  induction vs as [|v vs IH]; intros u k Hu H; [exact Hu|]. cbn. apply IH.
  - rewrite vplus_length; [exact Hu|]. rewrite Hu. symmetry. apply H. cbn; auto.
  - intros; apply H; cbn; auto.
Qed.

Lemma flat_terms_size : forall t u e fs v, (forall f, In f fs -> In f faces) ->
  (forall e, In e elements -> length (u e) = n e) ->
  In v (flat_map (face_terms t u e) fs) -> length v = n e.
Proof.
  intros t u e fs v Hf Hu Iv. apply in_flat_map in Iv as (f & If & Iv).
  eapply face_terms_size; eauto.
Qed.

Lemma rhs_size : forall t u e, In e elements -> (forall e, In e elements -> length (u e) = n e) ->
  length (right_hand_side t u e) = n e.
Proof.
  intros t u e He Hu. apply fold_vplus_length.
  - apply (element_size _ _ _ _ Ok). auto.
  - intros v Iv. eapply flat_terms_size; eauto.
Qed.

Lemma addTo_ok : forall id e v (m : memory), length v = length (m id e) ->
  addTo add id e v m = Some (mset m id e (vplus (m id e) v)).
Proof. intros. unfold addTo. rewrite vplusEq_ok by assumption. reflexivity. Qed.

Lemma computeRHS_ok : forall input result t u m,
  (forall e, In e elements -> length (u e) = n e) ->
  (forall m', (forall id e, id <> result -> m' id e = m id e) -> forall e, In e elements -> input m' e = Some (u e)) ->
  exists m', computeRightHandSideWith add app elements faces both input result t m = Some m' /\
    (forall id e, id <> result -> m' id e = m id e) /\
    (forall e, In e elements -> m' result e = right_hand_side t u e) /\
    (forall e, ~ In e elements -> m' result e = m result e).
Proof.
  intros input result t u m Hu Hin. unfold computeRightHandSideWith.
  match goal with |- exists m', match each ?l ?body ?mm with _ => _ end = _ /\ _ =>
    destruct (each_inv (fun pre (m1 : memory) =>
     (forall id e, id <> result -> m1 id e = m id e) /\
     (forall e, In e pre -> m1 result e = computeRightHandSideAtElement app e (u e) t) /\
     (forall e, ~ In e pre -> m1 result e = m result e)) body l mm) as (m1 & E1 & H1 & H2 & H3) end.
  { split; [auto|]. split; [intros e []|auto]. }
  { intros pre e post m0 El (P1 & P2 & P3).
    assert (Ie : In e elements) by (rewrite El; apply in_elt).
    assert (Ne : ~ In e pre).
    { pose proof (elements_once _ _ _ _ Ok) as ND. rewrite El in ND. apply NoDup_remove_2 in ND.
      intros H; apply ND; apply in_or_app; auto. }
    rewrite (Hin m0 P1 e Ie). eexists. split; [reflexivity|]. repeat split.
    - intros. rewrite mset_id by assumption. auto.
    - intros e' He'. apply in_app_iff in He' as [He'|[<-|[]]].
      + rewrite mset_el by congruence. auto.
      + apply mset_same.
    - intros e' He'. rewrite mset_el by (intros ->; apply He', in_or_app; cbn; auto).
      apply P3. intros H. apply He'. apply in_or_app; auto. }
  rewrite E1.
  match goal with |- exists m', each ?l ?body ?mm = _ /\ _ =>
    destruct (each_inv (fun pre (m2 : memory) =>
     (forall id e, id <> result -> m2 id e = m id e) /\
     (forall e, In e elements -> m2 result e =
        fold_left vplus (flat_map (face_terms t u e) pre) (computeRightHandSideAtElement app e (u e) t)) /\
     (forall e, ~ In e elements -> m2 result e = m result e)) body l mm) as (m2 & E2 & G1 & G2 & G3) end.
  { split; [exact H1|]. split; [cbn; exact H2|exact H3]. }
  { intros pre f post m0 El (P1 & P2 & P3).
    assert (If : In f faces) by (rewrite El; apply in_elt).
    assert (Ipre : forall f, In f pre -> In f faces) by (intros g Hg; rewrite El; apply in_or_app; auto).
    assert (Sz : forall e, In e elements -> length (m0 result e) = n e).
    { intros e He. rewrite P2 by assumption. apply fold_vplus_length.
      - apply (element_size _ _ _ _ Ok); auto.
      - intros v Iv. eapply flat_terms_size; eauto. }
    pose proof (left_listed _ _ _ _ Ok f If) as IL. cbn zeta.
    assert (FM : forall e x, flat_map (face_terms t u e) (pre ++ [x]) = flat_map (face_terms t u e) pre ++ face_terms t u e x).
    { intros. rewrite flat_map_app. cbn. rewrite app_nil_r. reflexivity. }
    destruct (ptrElementRight f) as [r|] eqn:ER.
    - pose proof (right_listed _ _ _ _ Ok f r If ER) as IR.
      rewrite (Hin m0 P1 _ IL), (Hin m0 P1 _ IR).
      destruct (face_size _ _ _ _ Ok f r _ _ t If ER (Hu _ IL) (Hu _ IR)) as (F1 & F2 & F3 & F4).
      set (p := if both then computeBothRightHandSidesAtFace app f (u (ptrElementLeft f)) (u r) t
                else (computeRightHandSideAtFace app f LEFT (u (ptrElementLeft f)) (u r) t,
                      computeRightHandSideAtFace app f RIGHT (u (ptrElementLeft f)) (u r) t)).
      assert (Lp : length (fst p) = n (ptrElementLeft f) /\ length (snd p) = n r).
      { unfold p. destruct both; auto. }
      assert (Body : (if negb both then
                  match addTo add result (ptrElementLeft f) (computeRightHandSideAtFace app f LEFT (u (ptrElementLeft f)) (u r) t) m0 with
                  | None => None
                  | Some m => addTo add result r (computeRightHandSideAtFace app f RIGHT (u (ptrElementLeft f)) (u r) t) m
                  end
                else
                  match addTo add result (ptrElementLeft f) (fst (computeBothRightHandSidesAtFace app f (u (ptrElementLeft f)) (u r) t)) m0 with
                  | None => None
                  | Some m => addTo add result r (snd (computeBothRightHandSidesAtFace app f (u (ptrElementLeft f)) (u r) t)) m
                  end) = match addTo add result (ptrElementLeft f) (fst p) m0 with
                  | None => None
                  | Some m => addTo add result r (snd p) m
                  end).
      { unfold p. destruct both; reflexivity. }
      rewrite Body. clear Body. destruct Lp as [Lp1 Lp2].
      rewrite addTo_ok by (rewrite Sz; assumption).
      set (m3 := mset m0 result (ptrElementLeft f) (vplus (m0 result (ptrElementLeft f)) (fst p))).
      assert (Sz3 : forall e, In e elements -> length (m3 result e) = n e).
      { intros e He. unfold m3. destruct (Nat.eq_dec e (ptrElementLeft f)) as [->|Ne].
        - rewrite mset_same, vplus_length; rewrite Sz; auto.
        - rewrite mset_el by assumption. auto. }
      rewrite addTo_ok by (rewrite Sz3; assumption).
      eexists. split; [reflexivity|]. repeat split.
      + intros. rewrite mset_id by assumption. unfold m3. rewrite mset_id by assumption. auto.
      + intros e He. rewrite FM, fold_left_app, <- (P2 e He).
        assert (T : face_terms t u e f = (if ptrElementLeft f =? e then [fst p] else []) ++ (if r =? e then [snd p] else [])).
        { unfold TimeStep_spec.face_terms. rewrite ER. reflexivity. }
        rewrite T, fold_left_app. clear T.
        assert (M3 : m3 result e = fold_left vplus (if ptrElementLeft f =? e then [fst p] else []) (m0 result e)).
        { unfold m3. destruct (Nat.eqb_spec (ptrElementLeft f) e) as [<-|Ne].
          - rewrite mset_same. reflexivity.
          - rewrite mset_el by congruence. reflexivity. }
        rewrite <- M3. destruct (Nat.eqb_spec r e) as [<-|Ne].
        * rewrite mset_same. reflexivity.
        * rewrite mset_el by congruence. reflexivity.
      + intros e He. rewrite mset_el by congruence. unfold m3. rewrite mset_el by congruence. auto.
    - rewrite (Hin m0 P1 _ IL).
      pose proof (boundary_size _ _ _ _ Ok f _ t If ER (Hu _ IL)) as Sb.
      rewrite addTo_ok by (rewrite Sz; assumption).
      eexists. split; [reflexivity|]. repeat split.
      + intros. rewrite mset_id by assumption. auto.
      + intros e He. rewrite FM, fold_left_app, <- (P2 e He).
        unfold TimeStep_spec.face_terms. rewrite ER. cbn zeta.
        destruct (Nat.eqb_spec (ptrElementLeft f) e) as [<-|Ne].
        * rewrite mset_same. reflexivity.
        * rewrite mset_el by congruence. reflexivity.
      + intros e He. rewrite mset_el by congruence. auto. }
  exists m2. split; [exact E2|]. auto.
Qed.

(** one in-place map over the elements *)
Lemma each_map : forall id (g : nat -> list A -> list A) (m : memory),
  exists m', each elements (fun e m => Some (mset m id e (g e (m id e)))) m = Some m' /\
    (forall id' e, id' <> id -> m' id' e = m id' e) /\
    (forall e, In e elements -> m' id e = g e (m id e)) /\
    (forall e, ~ In e elements -> m' id e = m id e).
Proof.
  intros id g m.
  destruct (each_inv (fun pre (m1 : memory) =>
     (forall id' e, id' <> id -> m1 id' e = m id' e) /\
     (forall e, In e pre -> m1 id e = g e (m id e)) /\
     (forall e, ~ In e pre -> m1 id e = m id e))
     (fun e m => Some (mset m id e (g e (m id e)))) elements m) as (m1 & E1 & H1 & H2 & H3).
  { split; [auto|]. split; [intros e []|auto]. }
  { intros pre e post m0 El (P1 & P2 & P3).
    assert (Ne : ~ In e pre).
    { pose proof (elements_once _ _ _ _ Ok) as ND. rewrite El in ND. apply NoDup_remove_2 in ND.
      intros H; apply ND; apply in_or_app; auto. }
    eexists. split; [reflexivity|]. repeat split.
    - intros. rewrite mset_id by assumption. auto.
    - intros e' He'. apply in_app_iff in He' as [He'|[<-|[]]].
      + rewrite mset_el by congruence. auto.
      + rewrite mset_same, P3 by assumption. reflexivity.
    - intros e' He'. rewrite mset_el by (intros ->; apply He', in_or_app; cbn; auto).
      apply P3. intros H. apply He'. apply in_or_app; auto. }
  exists m1. auto.
Qed.

Lemma scaleAndAdd_ok : forall id add_id s (m : memory), add_id <> id ->
  (forall e, In e elements -> length (m add_id e) = length (m id e)) ->
  exists m', scaleAndAddVector add mul elements id add_id s m = Some m' /\
    (forall id' e, id' <> id -> m' id' e = m id' e) /\
    (forall e, In e elements -> m' id e = vplus (m id e) (vtimes s (m add_id e))) /\
    (forall e, ~ In e elements -> m' id e = m id e).
Proof.
  intros id add_id s m Ni Sz. unfold scaleAndAddVector.
  destruct (each_inv (fun pre (m1 : memory) =>
     (forall id' e, id' <> id -> m1 id' e = m id' e) /\
     (forall e, In e pre -> m1 id e = vplus (m id e) (vtimes s (m add_id e))) /\
     (forall e, ~ In e pre -> m1 id e = m id e))
     (fun e m => match axpy add mul s (m add_id e) (m id e) with
                            | None => None | Some w => Some (mset m id e w) end) elements m) as (m1 & E1 & H1 & H2 & H3).
  { split; [auto|]. split; [intros e []|auto]. }
  { intros pre e post m0 El (P1 & P2 & P3).
    assert (Ie : In e elements) by (rewrite El; apply in_elt).
    assert (Ne : ~ In e pre).
    { pose proof (elements_once _ _ _ _ Ok) as ND. rewrite El in ND. apply NoDup_remove_2 in ND.
      intros H; apply ND; apply in_or_app; auto. }
    rewrite axpy_ok by (rewrite P1, P3 by auto; auto).
    eexists. split; [reflexivity|]. repeat split.
    - intros. rewrite mset_id by assumption. auto.
    - intros e' He'. apply in_app_iff in He' as [He'|[<-|[]]].
      + rewrite mset_el by congruence. auto.
      + rewrite mset_same, P3, P1 by auto. reflexivity.
    - intros e' He'. rewrite mset_el by (intros ->; apply He', in_or_app; cbn; auto).
      apply P3. intros H. apply He'. apply in_or_app; auto. }
  exists m1. auto.
Qed.

(** linear combination of input vectors *)
Lemma lincomb_input : forall (m : memory) e ids cs k, length ids = length cs ->
  length (m 0 e) = k -> (forall id, In id ids -> length (m id e) = k) ->
  getLinearCombinationOfVectors add mul m e (0 :: ids) (one :: cs) =
  Some (lincomb (m 0 e) (map (fun p => (snd p, m (fst p) e)) (combine ids cs))).
Proof.
  intros m e ids cs k L H0 H. unfold getLinearCombinationOfVectors. cbn [length].
  rewrite L, Nat.eqb_refl, vscale_one.
  assert (G : forall u, length u = k ->
     each (combine ids cs) (fun p acc => axpy add mul (snd p) (m (fst p) e) acc) u =
     Some (lincomb u (map (fun p => (snd p, m (fst p) e)) (combine ids cs)))).
  { clear L. revert cs. induction ids as [|id ids IH]; intros cs u Hu; [reflexivity|].
    destruct cs as [|c cs]; [reflexivity|]. cbn [combine each fst snd map].
    assert (L : length (m id e) = k) by (apply H; cbn; auto).
    rewrite axpy_ok by congruence.
    rewrite IH; [reflexivity|intros; apply H; cbn; auto|].
    rewrite vplus_length; rewrite ?vtimes_length; congruence. }
  apply G. exact H0.
Qed.

(** one stage *)
Lemma timeDerivative_ok : forall (m : memory) ids cs result t, length ids = length cs ->
  result <> 0 -> ~ In result ids ->
  (forall e, In e elements -> length (m 0 e) = n e) ->
  (forall e id, In e elements -> In id ids -> length (m id e) = n e) ->
  exists m', computeTimeDerivative add mul app elements faces both (0 :: ids) (one :: cs) result t m = Some m' /\
    (forall id e, id <> result -> m' id e = m id e) /\
    (forall e, In e elements -> m' result e =
      derivative t (fun e => lincomb (m 0 e) (map (fun p => (snd p, m (fst p) e)) (combine ids cs))) e) /\
    (forall e, In e elements -> length (m' result e) = n e).
Proof.
  intros m ids cs result t L R0 Rn S0 Si. unfold computeTimeDerivative, computeRightHandSideList.
  set (u := fun e => lincomb (m 0 e) (map (fun p => (snd p, m (fst p) e)) (combine ids cs))).
  assert (Su : forall e, In e elements -> length (u e) = n e).
  { intros e He. apply lincomb_length; [auto|]. intros p Hp. apply in_map_iff in Hp as ([id c] & <- & Hp).
    apply Si; [exact He|]. eapply in_combine_l; eauto. }
  destruct (computeRHS_ok (fun (m : memory) e => getLinearCombinationOfVectors add mul m e (0 :: ids) (one :: cs)) result t u m Su)
    as (m1 & E1 & H1 & H2 & H3).
  { intros m' Hm e He. rewrite (lincomb_input m' e ids cs (n e) L).
    - unfold u. rewrite (Hm 0 e) by auto. f_equal. f_equal. apply map_ext_in. intros [id c] Hp.
      cbn [fst snd]. rewrite (Hm id e); [reflexivity|]. intros ->. apply Rn. eapply in_combine_l; eauto.
    - rewrite Hm by auto. auto.
    - intros id Hid. rewrite Hm by (intros ->; auto). auto. }
  rewrite E1. unfold solveMassMatrixEquations.
  destruct (each_map result (solveMassMatrixEquationsAtElement app) m1) as (m2 & E2 & G1 & G2 & G3).
  exists m2. split; [exact E2|]. repeat split.
  - intros. rewrite G1, H1; auto.
  - intros e He. rewrite G2, H2 by assumption. reflexivity.
  - intros e He. rewrite G2, H2 by assumption. apply (mass_size _ _ _ _ Ok). apply rhs_size; auto.
Qed.

Section Step.
Variables (T : Tableau A) (a : nat -> nat -> A) (b c : nat -> A).
Hypothesis Ans : answers T a b c.
Local Notation s := (numberOfStages T).

Lemma aux_ids : forall j, j < s -> nth_error (auxiliaryVectorIds_ T) j = Some (S j).
Proof.
  intros j H. unfold auxiliaryVectorIds_.
  rewrite (nth_error_nth' _ 0) by (rewrite seq_length; exact H). rewrite seq_nth by exact H. reflexivity.
Qed.

Lemma stageInputs_ok : forall dt i, i < s -> forall js, (forall j, In j js -> j < i) ->
  stageInputs mul T dt i js = Some (map S js, map (fun j => mul dt (a i j)) js).
Proof.
  intros dt i Hi. induction js as [|j js IH]; intros H; [reflexivity|].
  cbn [stageInputs map]. assert (Hj : j < i) by (apply H; cbn; auto).
  rewrite aux_ids by lia. destruct (Ans i Hi) as (_ & _ & Ha). rewrite (Ha j Hj).
  rewrite IH by (intros; apply H; cbn; auto). reflexivity.
Qed.

Lemma combine_map : forall {X Y Z} (f : X -> Y) (g : X -> Z) l, combine (map f l) (map g l) = map (fun x => (f x, g x)) l.
Proof. induction l; cbn; congruence. Qed.

Lemma step_stages : forall t dt (m : memory), (forall e, In e elements -> length (m 0 e) = n e) ->
  exists m', each (seq 0 s) (fun i m =>
          match getC T i, nth_error (auxiliaryVectorIds_ T) i, stageInputs mul T dt i (seq 0 i) with
          | Some c, Some out, Some (ids, cs) =>
              computeTimeDerivative add mul app elements faces both (solutionVectorId_ :: ids) (one :: cs) out (add t (mul c dt)) m
          | _, _, _ => None
          end) m = Some m' /\
    (forall id e, (id = 0 \/ s < id) -> m' id e = m id e) /\
    (forall i e, i < s -> In e elements -> length (m' (S i) e) = n e) /\
    (forall i e, i < s -> In e elements ->
       m' (S i) e = derivative (add t (mul (c i) dt))
          (fun e' => lincomb (m 0 e') (map (fun j => (mul dt (a i j), m' (S j) e')) (seq 0 i))) e).
Proof.
  intros t dt m Sz.
  destruct (each_inv (fun pre (m' : memory) =>
    (forall id e, (id = 0 \/ s < id) -> m' id e = m id e) /\
    (forall i e, In i pre -> In e elements -> length (m' (S i) e) = n e) /\
    (forall i e, In i pre -> In e elements ->
       m' (S i) e = derivative (add t (mul (c i) dt))
          (fun e' => lincomb (m 0 e') (map (fun j => (mul dt (a i j), m' (S j) e')) (seq 0 i))) e))
    (fun i m =>
          match getC T i, nth_error (auxiliaryVectorIds_ T) i, stageInputs mul T dt i (seq 0 i) with
          | Some c, Some out, Some (ids, cs) =>
              computeTimeDerivative add mul app elements faces both (solutionVectorId_ :: ids) (one :: cs) out (add t (mul c dt)) m
          | _, _, _ => None
          end) (seq 0 s) m) as (m' & E & H1 & H2 & H3).
  { split; [auto|]. split; intros ? ? []. }
  { intros pre i post m0 El (P1 & P2 & P3).
    assert (Pre : pre = seq 0 i /\ i < s).
    { assert (Lp : length pre < s).
      { rewrite <- (seq_length s 0), El, app_length. cbn. lia. }
      assert (Ei : nth_error (seq 0 s) (length pre) = Some i).
      { rewrite El, nth_error_app2, Nat.sub_diag by lia. reflexivity. }
      rewrite (nth_error_nth' _ 0) in Ei by (rewrite seq_length; exact Lp).
      rewrite seq_nth in Ei by exact Lp. injection Ei as Ei. cbn in Ei. subst i. split; [|exact Lp].
      apply (f_equal (firstn (length pre))) in El. rewrite firstn_app, Nat.sub_diag, firstn_all in El.
      cbn [firstn] in El. rewrite app_nil_r in El. etransitivity; [symmetry; exact El|].
      apply firstn_seq. lia. }
    destruct Pre as [-> Hi].
    destruct (Ans i Hi) as (_ & Hc & _). rewrite Hc, aux_ids by exact Hi.
    rewrite (stageInputs_ok dt i Hi (seq 0 i)) by (intros j Hj; apply in_seq in Hj; lia).
    destruct (timeDerivative_ok m0 (map S (seq 0 i)) (map (fun j => mul dt (a i j)) (seq 0 i)) (S i) (add t (mul (c i) dt)))
      as (m1 & E1 & G1 & G2 & G3).
    - rewrite !map_length. reflexivity.
    - lia.
    - intros H. apply in_map_iff in H as (j & Hj & Ij). apply in_seq in Ij. lia.
    - intros e He. rewrite P1 by auto. auto.
    - intros e id He Hid. apply in_map_iff in Hid as (j & <- & Ij). auto.
    - exists m1. split; [exact E1|]. rewrite combine_map in G2. repeat split.
      + intros id e Hid. rewrite G1 by lia. auto.
      + intros j e Hj He. apply in_app_iff in Hj as [Hj|[<-|[]]].
        * assert (j < i) by (apply in_seq in Hj; lia). rewrite G1 by lia. auto.
        * auto.
      + intros j e Hj He. apply in_app_iff in Hj as [Hj|[<-|[]]].
        * assert (j < i) by (apply in_seq in Hj; lia). rewrite G1 by lia. rewrite P3 by assumption.
          apply derivative_ext; [exact He|]. intros e' He'. f_equal. apply map_ext_in.
          intros l Hl. apply in_seq in Hl. rewrite G1 by lia. reflexivity.
        * rewrite G2 by assumption. apply derivative_ext; [exact He|]. intros e' He'.
          rewrite P1 by auto. f_equal. rewrite map_map. apply map_ext_in. intros l Hl. apply in_seq in Hl.
          cbn [fst snd]. rewrite G1 by lia. reflexivity. }
  exists m'. split; [exact E|]. split; [exact H1|]. split.
  - intros. apply H2; [apply in_seq; lia|assumption].
  - intros. apply H3; [apply in_seq; lia|assumption].
Qed.

Lemma step_update : forall (x : A) (m : memory),
  (forall e, In e elements -> length (m 0 e) = n e) ->
  (forall i e, i < s -> In e elements -> length (m (S i) e) = n e) ->
  exists m', each (seq 0 s) (fun j m =>
    match nth_error (auxiliaryVectorIds_ T) j, getB T j with
    | Some id, Some b => scaleAndAddVector add mul elements solutionVectorId_ id (mul x b) m
    | _, _ => None
    end) m = Some m' /\
    (forall id e, id <> 0 -> m' id e = m id e) /\
    (forall e, In e elements -> m' 0 e = lincomb (m 0 e) (map (fun j => (mul x (b j), m (S j) e)) (seq 0 s))).
Proof.
  intros x m S0 Sk.
  destruct (each_inv (fun pre (m' : memory) =>
    (forall id e, id <> 0 -> m' id e = m id e) /\
    (forall e, In e elements -> m' 0 e = lincomb (m 0 e) (map (fun j => (mul x (b j), m (S j) e)) pre)))
   (fun j m =>
    match nth_error (auxiliaryVectorIds_ T) j, getB T j with
    | Some id, Some b => scaleAndAddVector add mul elements solutionVectorId_ id (mul x b) m
    | _, _ => None
    end) (seq 0 s) m) as (m' & E & H1 & H2).
  { split; auto. }
  { intros pre j post m0 El (P1 & P2).
    assert (Hj : j < s).
    { assert (Ij : In j (seq 0 s)) by (rewrite El; apply in_elt). apply in_seq in Ij. lia. }
    assert (Hpre : forall l, In l pre -> l < s).
    { intros l Hl. assert (Il : In l (seq 0 s)) by (rewrite El; apply in_or_app; auto). apply in_seq in Il. lia. }
    rewrite aux_ids by exact Hj. destruct (Ans j Hj) as (Hb & _). rewrite Hb.
    destruct (scaleAndAdd_ok solutionVectorId_ (S j) (mul x (b j)) m0) as (m1 & E1 & G1 & G2 & G3).
    - discriminate.
    - intros e He. unfold solutionVectorId_. rewrite P1, P2, Sk by (auto; lia). symmetry. apply lincomb_length; [auto|].
      intros p Hp. apply in_map_iff in Hp as (l & <- & Il). apply Sk; auto.
    - exists m1. split; [exact E1|]. split.
      + intros. rewrite G1 by assumption. auto.
      + intros e He. change 0 with solutionVectorId_ at 1. rewrite G2 by assumption. unfold solutionVectorId_.
        rewrite P2, P1 by auto. rewrite map_app, lincomb_app. reflexivity. }
  exists m'. auto.
Qed.

Local Notation rk := (runge_kutta add mul app elements faces both s a b c).

Lemma step_ok : forall t dt (m : memory), (forall e, In e elements -> length (m 0 e) = n e) ->
  exists m', computeOneTimeStep one add mul app elements faces both T t dt m = Some (m', add t dt) /\
    rk t dt (m 0) (fun i => m' (S i)) (m' 0) /\
    (forall id e, s < id -> m' id e = m id e) /\
    (forall i e, i < s -> In e elements -> length (m' (S i) e) = n e) /\
    (forall e, In e elements -> length (m' 0 e) = n e).
Proof.
  intros t dt m Sz. unfold computeOneTimeStep, updateSolution.
  destruct (step_stages t dt m Sz) as (m1 & E1 & H1 & H2 & H3). rewrite E1.
  destruct (step_update dt m1) as (m2 & E2 & G1 & G2); [intros; rewrite H1; auto|exact H2|].
  rewrite E2. exists m2. split; [reflexivity|]. repeat split.
  - intros i e Hi He. rewrite G1 by lia. rewrite H3 by assumption.
    apply derivative_ext; [exact He|]. intros e' He'. f_equal. apply map_ext. intros j. rewrite G1 by lia. reflexivity.
  - intros e He. rewrite G2 by assumption. rewrite H1 by auto. f_equal. apply map_ext. intros j. rewrite G1 by lia. reflexivity.
  - intros. rewrite G1 by lia. auto.
  - intros. rewrite G1 by lia. auto.
  - intros e He. rewrite G2 by assumption. apply lincomb_length; [rewrite H1; auto|].
    intros p Hp. apply in_map_iff in Hp as (l & <- & Il). apply in_seq in Il. apply H2; auto. lia.
Qed.

Lemma runge_kutta_ext : forall t dt u v k u', (forall e, In e elements -> u e = v e) -> rk t dt u k u' -> rk t dt v k u'.
Proof.
  intros t dt u v k u' H [H1 H2]. split.
  - intros i e Hi He. rewrite H1 by assumption. apply derivative_ext; [exact He|].
    intros e' He'. rewrite H by assumption. reflexivity.
  - intros e He. rewrite H2, H by assumption. reflexivity.
Qed.

Lemma adaptive_ok : forall control fuel t dt (m : memory) m' t' dt',
  (forall e, In e elements -> length (m 0 e) = n e) ->
  computeOneTimeStepAdaptive one add mul opp app elements faces both control T fuel t dt m = Some (m', t', dt') ->
  t' = add t dt' /\ control m' dt' = None /\
  rk t dt' (m 0) (fun i => m' (S i)) (m' 0).
Proof.
  intros control. induction fuel as [|fuel IH]; intros t dt m m' t' dt' Sz H; [discriminate|].
  cbn [computeOneTimeStepAdaptive] in H.
  destruct (step_ok t dt m Sz) as (m1 & E1 & R & H1 & H2 & H3). rewrite E1 in H.
  destruct (control m1 dt) as [dt2|] eqn:EC.
  - destruct (step_update (opp dt) m1 H3 H2) as (m2 & E2 & G1 & G2). rewrite E2 in H.
    assert (R2 : forall e, In e elements -> m2 0 e = m 0 e).
    { intros e He. rewrite G2 by assumption. rewrite (proj2 R e He).
      apply lincomb_undo with (n := n e); [auto|]. intros j Hj. apply in_seq in Hj. apply H2; auto. lia. }
    apply IH in H; [|intros; rewrite R2; auto]. destruct H as (Ht & Hc & Hr).
    split; [exact Ht|]. split; [exact Hc|]. eapply runge_kutta_ext; [|exact Hr]. exact R2.
  - injection H as <- <- <-. auto.
Qed.

Lemma adaptive_total : forall control (rank : A -> nat),
  (forall m dt dt', control m dt = Some dt' -> rank dt' < rank dt) ->
  forall fuel t dt (m : memory), (forall e, In e elements -> length (m 0 e) = n e) -> rank dt < fuel ->
  exists r, computeOneTimeStepAdaptive one add mul opp app elements faces both control T fuel t dt m = Some r.
Proof.
  intros control rank Hr. induction fuel as [|fuel IH]; intros t dt m Sz Hf; [lia|].
  cbn [computeOneTimeStepAdaptive].
  destruct (step_ok t dt m Sz) as (m1 & E1 & R & H1 & H2 & H3). rewrite E1.
  destruct (control m1 dt) as [dt2|] eqn:EC; [|eauto].
  destruct (step_update (opp dt) m1 H3 H2) as (m2 & E2 & G1 & G2). rewrite E2. apply IH.
  - intros e He. rewrite G2 by assumption. apply lincomb_length; [auto|].
    intros p Hp. apply in_map_iff in Hp as (l & <- & Il). apply in_seq in Il. apply H2; auto. lia.
  - specialize (Hr _ _ _ EC). lia.
Qed.
End Step.

(** the right-hand side for one input vector *)
Lemma rhs_single_ok : forall inputId result t (m : memory), inputId <> result ->
  (forall e, In e elements -> length (m inputId e) = n e) ->
  exists m', computeRightHandSide add app elements faces both inputId result t m = Some m' /\
    (forall id e, id <> result -> m' id e = m id e) /\
    (forall e, In e elements -> m' result e = right_hand_side t (m inputId) e).
Proof.
  intros inputId result t m Ni Sz. unfold computeRightHandSide.
  destruct (computeRHS_ok (fun (m : memory) e => Some (m inputId e)) result t (m inputId) m Sz) as (m' & E & H1 & H2 & _).
  - intros m' Hm e He. rewrite Hm by assumption. reflexivity.
  - exists m'. auto.
Qed.

(** the right-hand side for a linear combination of input vectors *)
Lemma rhs_list_ok : forall id0 c0 ids cs result t (m : memory), length ids = length cs ->
  ~ In result (id0 :: ids) ->
  (forall e id, In e elements -> In id (id0 :: ids) -> length (m id e) = n e) ->
  exists m', computeRightHandSideList add mul app elements faces both (id0 :: ids) (c0 :: cs) result t m = Some m' /\
    (forall id e, id <> result -> m' id e = m id e) /\
    (forall e, In e elements -> m' result e =
       right_hand_side t (fun e => lincomb (vtimes c0 (m id0 e)) (map (fun p => (snd p, m (fst p) e)) (combine ids cs))) e).
Proof.
  intros id0 c0 ids cs result t m L Rn Si. unfold computeRightHandSideList.
  set (u := fun e => lincomb (vtimes c0 (m id0 e)) (map (fun p => (snd p, m (fst p) e)) (combine ids cs))).
  destruct (computeRHS_ok (fun (m : memory) e => getLinearCombinationOfVectors add mul m e (id0 :: ids) (c0 :: cs)) result t u m)
    as (m' & E & H1 & H2 & _).
  - intros e He. apply lincomb_length; [rewrite vtimes_length; apply Si; cbn; auto|].
    intros p Hp. apply in_map_iff in Hp as ([id c] & <- & Hp).
    apply Si; [exact He|]. right. eapply in_combine_l; eauto.
  - intros m' Hm e He. unfold getLinearCombinationOfVectors. cbn [length]. rewrite L, Nat.eqb_refl.
    rewrite (Hm id0 e) by (intros ->; apply Rn; cbn; auto).
    assert (V : vscale mul c0 (m id0 e) = vtimes c0 (m id0 e)).
    { unfold vscale, TimeStep_spec.vtimes. apply map_ext. intros; ring. }
    rewrite V. unfold u.
    assert (G : forall ids' cs' w, (forall id, In id ids' -> In id ids) -> length w = n e ->
      each (combine ids' cs') (fun p acc => axpy add mul (snd p) (m' (fst p) e) acc) w =
      Some (lincomb w (map (fun p => (snd p, m (fst p) e)) (combine ids' cs')))).
    { induction ids' as [|id ids' IH]; intros cs' w Hsub Hw; [reflexivity|].
      destruct cs' as [|c cs']; [reflexivity|]. cbn [combine each fst snd map].
      assert (Iid : In id ids) by (apply Hsub; cbn; auto).
      rewrite (Hm id e) by (intros ->; apply Rn; cbn; auto).
      assert (Lid : length (m id e) = n e) by (apply Si; cbn; auto).
      rewrite axpy_ok by congruence.
      rewrite IH; [reflexivity|intros; apply Hsub; cbn; auto|].
      rewrite vplus_length; rewrite ?vtimes_length; congruence. }
    apply G; [auto|]. rewrite vtimes_length. apply Si; cbn; auto.
  - exists m'. auto.
Qed.
End Mesh.
End S.

Section Conservation.
Context {A : Type}.
Variables (zero one : A) (add mul sub : A -> A -> A) (opp : A -> A).
Variable Rth : ring_theory zero one add mul sub opp (@eq A).
Add Ring Aring2 : Rth.
Variables (app : @Application A) (elements : list nat) (faces : list Face) (both : bool) (n : nat -> nat).
Hypothesis Ok : consistent app elements faces n.
Variables (q : list A -> A) (t : A) (u : nat -> list A).
Hypothesis Add : additive add q.
Hypothesis Sz : forall e, In e elements -> length (u e) = n e.
Local Notation total := (total zero add).
Local Notation face_terms := (face_terms app both).

Lemma total_cons : forall x l, total (x :: l) = add x (total l).
Proof. reflexivity. Qed.
Lemma total_add : forall (g h : nat -> A) l, total (map (fun e => add (g e) (h e)) l) = add (total (map g l)) (total (map h l)).
Proof. intros g h. induction l as [|x l IH]; [cbn; ring|]. cbn [map]. rewrite !total_cons, IH. ring. Qed.
Lemma total_zero : forall (g : nat -> A) l, (forall e, In e l -> g e = zero) -> total (map g l) = zero.
Proof. intros g. induction l as [|x l IH]; intros H; [reflexivity|]. cbn [map]. rewrite total_cons, (H x), IH; [ring|intros; apply H; cbn; auto|cbn; auto]. Qed.

Lemma total_ind : forall (a : nat) (v : list A) l, NoDup l -> In a l ->
  total (map (fun e => total (map q (if a =? e then [v] else []))) l) = q v.
Proof.
  intros a v. induction l as [|x l IH]; intros ND Ia; [contradiction|].
  inversion ND as [|? ? Nx ND']; subst. cbn [map]. rewrite total_cons.
  destruct (Nat.eqb_spec a x) as [->|Ne].
  - rewrite total_zero.
    + cbn. ring.
    + intros e He. destruct (Nat.eqb_spec x e) as [->|]; [contradiction|reflexivity].
  - rewrite IH; [cbn; ring|exact ND'|]. destruct Ia as [E|Ia]; [congruence|exact Ia].
Qed.

Lemma total_app : forall l1 l2, total (l1 ++ l2) = add (total l1) (total l2).
Proof.
  induction l1 as [|x l IH]; intros; [change (total l2 = add zero (total l2)); ring|]. cbn [List.app]. rewrite !total_cons, IH. ring. Qed.

Lemma q_fold : forall vs v k, length v = k -> (forall w, In w vs -> length w = k) ->
  q (fold_left (vplus add) vs v) = add (q v) (total (map q vs)).
Proof.
  induction vs as [|w vs IH]; intros v k Hv H; cbn [fold_left map]; [cbn; ring|].
  assert (L : length v = length w) by (rewrite Hv; symmetry; apply H; cbn; auto).
  rewrite (IH _ k).
  - rewrite (Add v w) by exact L. rewrite total_cons. ring.
  - rewrite vplus_length; assumption.
  - intros; apply H; cbn; auto.
Qed.

Lemma conservation : total (map (fun e => q (right_hand_side add app faces both t u e)) elements) =
  add (total (map (fun e => q (computeRightHandSideAtElement app e (u e) t)) elements))
      (total (map (given add app both q t u) faces)).
Proof.
  transitivity (total (map (fun e => add (q (computeRightHandSideAtElement app e (u e) t))
                                   (total (map q (flat_map (face_terms t u e) faces)))) elements)).
  { f_equal. apply map_ext_in. intros e He. unfold right_hand_side. apply q_fold with (k := n e).
    - apply (element_size _ _ _ _ Ok). auto.
    - intros w Hw. eapply flat_terms_size; eauto. }
  rewrite total_add. f_equal.
  assert (G : forall fs, (forall f, In f fs -> In f faces) ->
    total (map (fun e => total (map q (flat_map (face_terms t u e) fs))) elements) = total (map (given add app both q t u) fs)).
  2:{ apply G. auto. }
  induction fs as [|f fs IH]; intros Hf.
  - apply total_zero. reflexivity.
  - transitivity (total (map (fun e => add (total (map q (face_terms t u e f)))
        (total (map q (flat_map (face_terms t u e) fs)))) elements)).
    { f_equal. apply map_ext. intros e. cbn [flat_map]. rewrite map_app. apply total_app. }
    rewrite total_add, IH by (intros; apply Hf; cbn; auto). cbn [map]. rewrite total_cons. f_equal.
    assert (If : In f faces) by (apply Hf; cbn; auto).
    pose proof (left_listed _ _ _ _ Ok f If) as IL. pose proof (elements_once _ _ _ _ Ok) as ND.
    unfold TimeStep_spec.face_terms, given. destruct (ptrElementRight f) as [r|] eqn:ER.
    + pose proof (right_listed _ _ _ _ Ok f r If ER) as IR.
      set (p := if both then _ else _).
      transitivity (total (map (fun e => add (total (map q (if ptrElementLeft f =? e then [fst p] else [])))
                                             (total (map q (if r =? e then [snd p] else [])))) elements)).
      { f_equal. apply map_ext. intros e. rewrite map_app. apply total_app. }
      rewrite total_add, !total_ind by assumption. unfold p. destruct both; reflexivity.
    + apply total_ind; assumption.
Qed.
End Conservation.

Lemma rhs_conserves : forall (A : Type) (zero one : A) add mul sub opp,
  ring_theory zero one add mul sub opp (@eq A) ->
  forall (app : @Application A) elements faces both n, consistent app elements faces n ->
  forall q, additive add q ->
  forall inputId result t (m : memory), inputId <> result ->
  (forall e, In e elements -> length (m inputId e) = n e) ->
  exists m', computeRightHandSide add app elements faces both inputId result t m = Some m' /\
  total zero add (map (fun e => q (m' result e)) elements) =
  add (total zero add (map (fun e => q (computeRightHandSideAtElement app e (m inputId e) t)) elements))
      (total zero add (map (given add app both q t (m inputId)) faces)).
Proof.
  intros A zero one add mul sub opp Rth app elements faces both n Ok q Aq inputId result t m Ni Sz.
  destruct (rhs_single_ok add app elements faces both n Ok inputId result t m Ni Sz)
    as (m' & E & _ & H). exists m'. split; [exact E|].
  rewrite <- (conservation zero one add mul sub opp Rth app elements faces both n Ok q t (m inputId) Aq Sz).
  f_equal. apply map_ext_in. intros e He. rewrite H by exact He. reflexivity.
Qed.
