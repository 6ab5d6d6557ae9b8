From Coq Require Import List Arith Bool Lia.
From Verif Require Import Loop_model QuadCache_model QuadCache_spec.
Import ListNotations.

Lemma ltb_same : forall x y, same_key Nat.ltb x y = true <-> x = y.
Proof.
  intros x y. unfold same_key. rewrite andb_true_iff, !negb_true_iff, !Nat.ltb_ge. lia.
Qed.

Lemma container_same : forall x y, same_key container_less x y = true <-> x = y.
Proof.
  intros [a|a a'] [b|b b']; unfold same_key; cbn [container_less]; split; intro H; try discriminate.
  - f_equal. apply ltb_same. exact H.
  - injection H as <-. apply ltb_same. reflexivity.
  - destruct (a <? b) eqn:A, (b <? a) eqn:B, (a' <? b') eqn:A', (b' <? a') eqn:B'; cbn in H; try discriminate.
    apply Nat.ltb_ge in A, B, A', B'. f_equal; lia.
  - injection H as <- <-. rewrite !Nat.ltb_irrefl. reflexivity.
Qed.

Section Map.
Context {K D : Type} (less : K -> K -> bool) (same : forall x y, same_key less x y = true <-> x = y).

Lemma at_erase_same : forall (m : list (K * D)) k, at_ less (erase less m k) k = None.
Proof.
  intros m k. unfold at_, erase. induction m as [|[k0 d0] m IH]; cbn; auto.
  destruct (same_key less k0 k) eqn:E; cbn; auto. rewrite E. exact IH.
Qed.
Lemma at_erase_other : forall (m : list (K * D)) k k', k <> k' -> at_ less (erase less m k) k' = at_ less m k'.
Proof.
  intros m k k' N. unfold at_, erase. induction m as [|[k0 d0] m IH]; cbn; auto.
  destruct (same_key less k0 k) eqn:E; cbn.
  - destruct (same_key less k0 k') eqn:E'; auto. apply same in E, E'. subst. contradiction.
  - destruct (same_key less k0 k') eqn:E'; auto.
Qed.
Lemma at_assign_same : forall (m : list (K * D)) k d, at_ less (assign less m k d) k = Some d.
Proof. intros. unfold at_, assign. cbn. rewrite (proj2 (same k k) eq_refl). reflexivity. Qed.
Lemma at_assign_other : forall (m : list (K * D)) k k' d, k <> k' -> at_ less (assign less m k d) k' = at_ less m k'.
Proof.
  intros m k k' d N. unfold at_ at 1, assign. cbn. destruct (same_key less k k') eqn:E.
  - apply same in E. contradiction.
  - exact (at_erase_other m k k' N).
Qed.
End Map.

Lemma table_eqb_eq : forall s t, table_eqb s t = true <-> s = t.
Proof. intros [] []; cbn; split; congruence. Qed.
Lemma change_same {X} : forall (f : table -> X) t x, change f t x t = x.
Proof. intros. unfold change. now destruct t. Qed.
Lemma change_other {X} : forall (f : table -> X) t x s, s <> t -> change f t x s = f s.
Proof. intros. unfold change. destruct (table_eqb s t) eqn:E; auto. apply table_eqb_eq in E. contradiction. Qed.
Lemma table_dec : forall s t : table, s = t \/ s <> t.
Proof. intros. destruct (table_eqb s t) eqn:E; [left; now apply table_eqb_eq|right; intro; apply table_eqb_eq in H; congruence]. Qed.

Lemma update_same {X} : forall (f : nat -> X) a x, update f a x a = x.
Proof. intros. unfold update. now rewrite Nat.eqb_refl. Qed.
Lemma update_other {X} : forall (f : nat -> X) a x b, b <> a -> update f a x b = f b.
Proof. intros. unfold update. apply Nat.eqb_neq in H. now rewrite H. Qed.

(** collect *)
Lemma collect_from {A} : forall n start (f : nat -> option A) acc l,
  for_from start n (fun i acc => match f i with None => None | Some x => Some (acc ++ [x]) end) acc = Some l ->
  exists k, l = acc ++ k /\ length k = n /\ forall i, i < n -> nth_error k i = f (start + i).
Proof.
  induction n as [|n IH]; intros start f acc l H; cbn in H.
  - injection H as <-. exists []. rewrite app_nil_r. repeat split. intros i Hi; lia.
  - destruct (f start) as [x|] eqn:E; [|discriminate].
    destruct (IH _ _ _ _ H) as (k & -> & L & N). exists (x :: k). rewrite <- app_assoc. cbn.
    repeat split; [now rewrite L|]. intros [|i] Hi; cbn.
    + now rewrite Nat.add_0_r.
    + rewrite N by lia. f_equal. lia.
Qed.
Lemma collect_some {A} : forall n (f : nat -> option A) l, collect n f = Some l ->
  length l = n /\ forall i, i < n -> nth_error l i = f i.
Proof. intros n f l H. destruct (collect_from _ _ _ _ _ H) as (k & -> & L & N). split; assumption. Qed.
Lemma collect_from_ok {A} : forall n start (f : nat -> option A) acc,
  (forall i, i < n -> f (start + i) <> None) ->
  exists l, for_from start n (fun i acc => match f i with None => None | Some x => Some (acc ++ [x]) end) acc = Some l.
Proof.
  induction n as [|n IH]; intros start f acc H; cbn; [now eexists|].
  pose proof (H 0 ltac:(lia)) as H0. rewrite Nat.add_0_r in H0. destruct (f start); [|contradiction].
  apply IH. intros i Hi. specialize (H (S i) ltac:(lia)). rewrite Nat.add_succ_r in H. exact H.
Qed.
Lemma collect_ok {A} : forall n (f : nat -> option A), (forall i, i < n -> f i <> None) -> exists l, collect n f = Some l.
Proof. intros. apply collect_from_ok. exact H. Qed.

Section Proofs.
Context {F P V : Type}.
Variable value : F -> table -> P -> V.
Variable rules : nat -> @rule P.
Variable transform1 transform0 : nat -> P -> P.
Notation trans := (transform transform1 transform0).
Notation filled := (fill value).

Lemma fill_entry : forall b t fs ps v i j, filled b t fs ps = Some v -> i < length ps -> j < length fs ->
  b = true /\ exists f p, nth_error fs j = Some f /\ nth_error ps i = Some p /\ entry v i j = Some (value f t p).
Proof.
  intros b t fs ps v i j H Hi Hj. apply collect_some in H. destruct H as (L & N). specialize (N i Hi).
  destruct b.
  - split; auto. unfold entry.
    destruct (nth_error ps i) as [p|] eqn:Ep; [|apply nth_error_None in Ep; lia].
    destruct (nth_error fs j) as [f|] eqn:Ef; [|apply nth_error_None in Ef; lia].
    exists f, p. repeat split. rewrite N.
    destruct (collect (length fs) _) as [row|] eqn:C.
    + apply collect_some in C. destruct C as (_ & C). rewrite C by assumption. now rewrite Ef.
    + rewrite <- L in Hi. apply nth_error_Some in Hi. congruence.
  - rewrite <- L in Hi. apply nth_error_Some in Hi. congruence.
Qed.
Lemma fill_ok : forall t (fs : list F) ps, exists v, filled true t fs ps = Some v.
Proof.
  intros. apply collect_ok. intros i Hi.
  destruct (nth_error ps i) as [p|] eqn:Ep; [|apply nth_error_None in Ep; lia].
  destruct (collect_ok (length fs) (fun j => match nth_error fs j with None => None | Some f => Some (value f t p) end)) as (l & ->).
  - intros j Hj. destruct (nth_error fs j) eqn:Ef; [discriminate|apply nth_error_None in Ef; lia].
  - discriminate.
Qed.

Lemma direct_sensible : forall t d, direct_possible t d = true <-> sensible t d.
Proof.
  intros [] d; cbn [direct_possible sensible]; rewrite ?andb_true_iff, ?Nat.leb_le, ?Nat.eqb_eq; intuition lia.
Qed.
Lemma face_sensible : forall t d, face_possible t d = true <-> sensible t (S d).
Proof.
  intros [] d; cbn [face_possible sensible]; rewrite ?andb_true_iff, ?Nat.leb_le, ?Nat.eqb_eq; intuition lia.
Qed.

(** unregistering *)
Lemma unregister_direct : forall (c : @tables V) a t b,
  at_ Nat.ltb (direct (unregisterBasisFunctionSet c a) t) b =
  if b =? a then None else at_ Nat.ltb (direct c t) b.
Proof.
  intros c a t b. destruct t; cbn; destruct (b =? a) eqn:E.
  all: try (apply Nat.eqb_eq in E; subst; apply at_erase_same).
  all: apply Nat.eqb_neq in E; apply at_erase_other; [apply ltb_same|congruence].
Qed.
Lemma unregister_face : forall (c : @tables V) a t b,
  at_ Nat.ltb (face (unregisterBasisFunctionSet c a) t) b =
  if b =? a then None else at_ Nat.ltb (face c t) b.
Proof.
  intros c a t b. destruct t; cbn; destruct (b =? a) eqn:E.
  all: try (apply Nat.eqb_eq in E; subst; apply at_erase_same).
  all: apply Nat.eqb_neq in E; apply at_erase_other; [apply ltb_same|congruence].
Qed.
Lemma call_direct : forall l a (c : nat -> @tables V) r t b,
  at_ Nat.ltb (direct (call_listeners l a c r) t) b =
  if (b =? a) && existsb (Nat.eqb r) l then None else at_ Nat.ltb (direct (c r) t) b.
Proof.
  induction l as [|x l IH]; intros a c r t b; cbn [call_listeners fold_left existsb].
  - now rewrite andb_false_r.
  - unfold call_listeners in IH. rewrite IH. destruct (r =? x) eqn:E; cbn [orb].
    + apply Nat.eqb_eq in E. subst x. rewrite update_same, unregister_direct.
      destruct (b =? a); cbn; [now destruct (existsb _ _)|reflexivity].
    + apply Nat.eqb_neq in E. now rewrite update_other.
Qed.
Lemma call_face : forall l a (c : nat -> @tables V) r t b,
  at_ Nat.ltb (face (call_listeners l a c r) t) b =
  if (b =? a) && existsb (Nat.eqb r) l then None else at_ Nat.ltb (face (c r) t) b.
Proof.
  induction l as [|x l IH]; intros a c r t b; cbn [call_listeners fold_left existsb].
  - now rewrite andb_false_r.
  - unfold call_listeners in IH. rewrite IH. destruct (r =? x) eqn:E; cbn [orb].
    + apply Nat.eqb_eq in E. subst x. rewrite update_same, unregister_face.
      destruct (b =? a); cbn; [now destruct (existsb _ _)|reflexivity].
    + apply Nat.eqb_neq in E. now rewrite update_other.
Qed.

Record good (M : memory) (w : @world F V) : Prop := {
  g_sets : forall a, option_map functions (sets w a) = M a;
  g_direct : forall r t a v, at_ Nat.ltb (direct (caches w r) t) a = Some v ->
    exists s, sets w a = Some s /\ In r (listeners s) /\
              filled (direct_possible t (dimension (rules r))) t (functions s) (points (rules r)) = Some v;
  g_face : forall r t a n, at_ Nat.ltb (face (caches w r) t) a = Some n ->
    exists s, sets w a = Some s /\ In r (listeners s) /\
      forall m v, at_ container_less n m = Some v ->
      filled (face_possible t (dimension (rules r))) t (functions s) (map (trans m) (points (rules r))) = Some v }.

Lemma listeners_gone : forall (w : @world F V) M a s b, good M w -> sets w a = Some s ->
  forall r t v, at_ Nat.ltb (direct (call_listeners (listeners s) a (caches w) r) t) b = Some v ->
  b <> a /\ at_ Nat.ltb (direct (caches w r) t) b = Some v.
Proof.
  intros w M a s b Hg S r t v H. rewrite call_direct in H. destruct (b =? a) eqn:E; cbn in H.
  - apply Nat.eqb_eq in E. subst b. destruct (existsb _ _) eqn:X; [discriminate|].
    destruct (g_direct _ _ Hg _ _ _ _ H) as (s' & S' & I & _). rewrite S in S'. injection S' as <-.
    exfalso. assert (existsb (Nat.eqb r) (listeners s) = true) by (apply existsb_exists; exists r; split; [auto|apply Nat.eqb_refl]).
    congruence.
  - apply Nat.eqb_neq in E. auto.
Qed.
Lemma listeners_gone_face : forall (w : @world F V) M a s b, good M w -> sets w a = Some s ->
  forall r t v, at_ Nat.ltb (face (call_listeners (listeners s) a (caches w) r) t) b = Some v ->
  b <> a /\ at_ Nat.ltb (face (caches w r) t) b = Some v.
Proof.
  intros w M a s b Hg S r t v H. rewrite call_face in H. destruct (b =? a) eqn:E; cbn in H.
  - apply Nat.eqb_eq in E. subst b. destruct (existsb _ _) eqn:X; [discriminate|].
    destruct (g_face _ _ Hg _ _ _ _ H) as (s' & S' & I & _). rewrite S in S'. injection S' as <-.
    exfalso. assert (existsb (Nat.eqb r) (listeners s) = true) by (apply existsb_exists; exists r; split; [auto|apply Nat.eqb_refl]).
    congruence.
  - apply Nat.eqb_neq in E. auto.
Qed.

Lemma good_start : good empty start.
Proof. split; cbn; [reflexivity|discriminate|discriminate]. Qed.

Lemma good_new : forall M w a w', good M w -> newSet a w = Some w' ->
  exists M', does value rules trans (New a) M M' [] /\ good M' w'.
Proof.
  intros M w a w' Hg H. unfold newSet in H. destruct (sets w a) eqn:S; [discriminate|]. injection H as <-.
  exists (update M a (Some [])). split.
  - constructor.
    + rewrite <- (g_sets _ _ Hg), S. reflexivity.
    + apply update_same.
    + intros b N. apply update_other. exact N.
  - split; cbn.
    + intro b. unfold update. destruct (b =? a); [reflexivity|apply (g_sets _ _ Hg)].
    + intros r t b v Hv. destruct (g_direct _ _ Hg _ _ _ _ Hv) as (s & Es & I & E).
      exists s. rewrite update_other by congruence. auto.
    + intros r t b v Hv. destruct (g_face _ _ Hg _ _ _ _ Hv) as (s & Es & I & E).
      exists s. rewrite update_other by congruence. auto.
Qed.

Lemma good_delete : forall M w a w', good M w -> deleteSet a w = Some w' ->
  exists M', does value rules trans (Delete a) M M' [] /\ good M' w'.
Proof.
  intros M w a w' Hg H. unfold deleteSet in H. destruct (sets w a) as [s0|] eqn:S; [|discriminate]. injection H as <-.
  exists (update M a None). split.
  - constructor.
    + rewrite <- (g_sets _ _ Hg), S. discriminate.
    + apply update_same.
    + intros b N. apply update_other. exact N.
  - split; cbn.
    + intro b. unfold update. destruct (b =? a); [reflexivity|apply (g_sets _ _ Hg)].
    + intros r t b v Hv. destruct (listeners_gone w M a s0 b Hg S r t v Hv) as (N & Hv').
      destruct (g_direct _ _ Hg _ _ _ _ Hv') as (s & Es & I & E).
      exists s. rewrite update_other by congruence. auto.
    + intros r t b v Hv. destruct (listeners_gone_face w M a s0 b Hg S r t v Hv) as (N & Hv').
      destruct (g_face _ _ Hg _ _ _ _ Hv') as (s & Es & I & E).
      exists s. rewrite update_other by congruence. auto.
Qed.

Lemma good_add : forall M w a f w', good M w -> addBasisFunction a f w = Some w' ->
  exists M', does value rules trans (Add a f) M M' [] /\ good M' w'.
Proof.
  intros M w a f w' Hg H. unfold addBasisFunction in H. destruct (sets w a) as [s0|] eqn:S; [|discriminate]. injection H as <-.
  exists (update M a (Some (functions s0 ++ [f]))). split.
  - apply does_add with (l := functions s0).
    + rewrite <- (g_sets _ _ Hg), S. reflexivity.
    + apply update_same.
    + intros b N. apply update_other. exact N.
  - split; cbn.
    + intro b. unfold update. destruct (b =? a); [reflexivity|apply (g_sets _ _ Hg)].
    + intros r t b v Hv. destruct (listeners_gone w M a s0 b Hg S r t v Hv) as (N & Hv').
      destruct (g_direct _ _ Hg _ _ _ _ Hv') as (s & Es & I & E).
      exists s. rewrite update_other by congruence. auto.
    + intros r t b v Hv. destruct (listeners_gone_face w M a s0 b Hg S r t v Hv) as (N & Hv').
      destruct (g_face _ _ Hg _ _ _ _ Hv') as (s & Es & I & E).
      exists s. rewrite update_other by congruence. auto.
Qed.

(** the set at [a] got one more listener *)
Lemma registered : forall (w : @world F V) a s r b s', sets w a = Some s -> sets w b = Some s' ->
  exists s'', update (sets w) a (Some (registerDestructorListener s r)) b = Some s'' /\ functions s'' = functions s' /\ (forall q, In q (listeners s') -> In q (listeners s'')) /\ (b = a -> In r (listeners s'')).
Proof.
  intros w a s r b s' S S'. destruct (Nat.eq_dec b a) as [->|N].
  - rewrite update_same. rewrite S in S'. injection S' as <-. eexists. split; [reflexivity|].
    cbn. repeat split; intros; apply in_or_app; [left; assumption|right; left; reflexivity].
  - rewrite update_other by assumption. exists s'. repeat split; auto. contradiction.
Qed.

Lemma some_pair : forall (w : @world F V) (o : option V) q, option_map (pair w) o = Some q -> o = Some (snd q) /\ fst q = w.
Proof. intros w [v|] q H; cbn in H; [injection H as <-; split; reflexivity|discriminate]. Qed.

Lemma good_eval : forall M w r t a j i w' out, good M w -> eval value rules r t a j i w = Some (w', out) ->
  does value rules trans (Eval r t a j i) M M [out] /\ good M w'.
Proof.
  intros M w r t a j i w' out Hg H. unfold eval in H. destruct (sets w a) as [s|] eqn:S; [|discriminate].
  destruct ((i <? _) && (j <? _)) eqn:B; [|discriminate]. apply andb_true_iff in B. destruct B as [Bi Bj].
  apply Nat.ltb_lt in Bi, Bj.
  assert (DO : forall v, filled (direct_possible t (dimension (rules r))) t (functions s) (points (rules r)) = Some v ->
                 entry v i j = Some out -> does value rules trans (Eval r t a j i) M M [out]).
  { intros v E En. destruct (fill_entry _ _ _ _ _ i j E Bi Bj) as (D & f & p & Ef & Ep & Ev).
    rewrite Ev in En. injection En as <-. apply does_eval with (l := functions s); auto.
    - rewrite <- (g_sets _ _ Hg), S. reflexivity.
    - now apply direct_sensible. }
  destruct (at_ Nat.ltb (direct (caches w r) t) a) as [v|] eqn:C.
  - apply some_pair in H. destruct H as (H & W). cbn in H, W. subst w'. split; [|assumption].
    destruct (g_direct _ _ Hg _ _ _ _ C) as (s' & S' & I & E). rewrite S in S'. injection S' as <-.
    exact (DO v E H).
  - destruct (fill _ _ _ _ _) as [v|] eqn:E; [|discriminate].
    apply some_pair in H. destruct H as (H & W). cbn in H, W. split; [exact (DO v eq_refl H)|]. subst w'. split; cbn.
    + intro b. destruct (Nat.eq_dec b a) as [->|N].
      * rewrite update_same. cbn. rewrite <- (g_sets _ _ Hg), S. reflexivity.
      * rewrite update_other by assumption. apply (g_sets _ _ Hg).
    + intros r' t' b v' Hv.
      assert (OLD : at_ Nat.ltb (direct (caches w r') t') b = Some v' -> exists s0 : set,
        update (sets w) a (Some (registerDestructorListener s r)) b = Some s0 /\
        In r' (listeners s0) /\ filled (direct_possible t' (dimension (rules r'))) t' (functions s0) (points (rules r')) = Some v').
      { intro Hv'. destruct (g_direct _ _ Hg _ _ _ _ Hv') as (s' & Es & I & E').
        destruct (registered w a s r b s' S Es) as (s'' & U & Fu & L & _). exists s''. rewrite Fu. auto. }
      destruct (Nat.eq_dec r' r) as [->|N]; [|rewrite update_other in Hv by assumption; auto].
      rewrite update_same in Hv. cbn in Hv. destruct (table_dec t' t) as [->|N]; [|rewrite change_other in Hv by assumption; auto].
      rewrite change_same in Hv. destruct (Nat.eq_dec b a) as [->|N].
      * rewrite at_assign_same in Hv by apply ltb_same. injection Hv as <-.
        destruct (registered w a s r a s S S) as (s'' & U & Fu & L & R). exists s''. rewrite Fu. auto.
      * rewrite at_assign_other in Hv; [auto|apply ltb_same|congruence].
    + intros r' t' b n Hv.
      assert (Hv' : at_ Nat.ltb (face (caches w r') t') b = Some n).
      { destruct (Nat.eq_dec r' r) as [->|N]; [rewrite update_same in Hv|rewrite update_other in Hv by assumption]; exact Hv. }
      destruct (g_face _ _ Hg _ _ _ _ Hv') as (s' & Es & I & E').
      destruct (registered w a s r b s' S Es) as (s'' & U & Fu & L & _). exists s''. rewrite Fu. auto.
Qed.

Lemma good_eval_face : forall M w r t a j i m w' out, good M w ->
  evalFace value rules transform1 transform0 r t a j i m w = Some (w', out) ->
  does value rules trans (EvalFace r t a j i m) M M [out] /\ good M w'.
Proof.
  intros M w r t a j i m w' out Hg H. unfold evalFace in H. destruct (sets w a) as [s|] eqn:S; [|discriminate].
  destruct ((i <? _) && (j <? _)) eqn:B; [|discriminate]. apply andb_true_iff in B. destruct B as [Bi Bj].
  apply Nat.ltb_lt in Bi, Bj.
  assert (DO : forall v, filled (face_possible t (dimension (rules r))) t (functions s) (map (trans m) (points (rules r))) = Some v ->
                 entry v i j = Some out -> does value rules trans (EvalFace r t a j i m) M M [out]).
  { intros v E En. destruct (fill_entry _ _ _ _ _ i j E) as (D & f & p & Ef & Ep & Ev); [now rewrite map_length|assumption|].
    rewrite nth_error_map in Ep. destruct (nth_error (points (rules r)) i) as [p0|] eqn:Ep0; [|discriminate]. injection Ep as <-.
    rewrite Ev in En. injection En as <-. apply does_eval_face with (l := functions s); auto.
    - rewrite <- (g_sets _ _ Hg), S. reflexivity.
    - now apply face_sensible. }
  set (inner := match at_ Nat.ltb (face (caches w r) t) a with None => [] | Some n => n end) in H.
  assert (IN : forall m v, at_ container_less inner m = Some v ->
    filled (face_possible t (dimension (rules r))) t (functions s) (map (trans m) (points (rules r))) = Some v).
  { intros m' v. unfold inner. destruct (at_ Nat.ltb (face (caches w r) t) a) as [n|] eqn:C; [|discriminate].
    destruct (g_face _ _ Hg _ _ _ _ C) as (s' & S' & I & E). rewrite S in S'. injection S' as <-. apply E. }
  destruct (at_ container_less inner m) as [v|] eqn:C.
  - apply some_pair in H. destruct H as (H & W). cbn in H, W. subst w'. split; [|assumption]. exact (DO v (IN _ _ C) H).
  - destruct (fill _ _ _ _ _) as [v|] eqn:E; [|discriminate].
    apply some_pair in H. destruct H as (H & W). cbn in H, W. split; [exact (DO v eq_refl H)|]. subst w'. split; cbn.
    + intro b. destruct (Nat.eq_dec b a) as [->|N].
      * rewrite update_same. cbn. rewrite <- (g_sets _ _ Hg), S. reflexivity.
      * rewrite update_other by assumption. apply (g_sets _ _ Hg).
    + intros r' t' b n Hv.
      assert (Hv' : at_ Nat.ltb (direct (caches w r') t') b = Some n).
      { destruct (Nat.eq_dec r' r) as [->|N]; [rewrite update_same in Hv|rewrite update_other in Hv by assumption]; exact Hv. }
      destruct (g_direct _ _ Hg _ _ _ _ Hv') as (s' & Es & I & E').
      destruct (registered w a s r b s' S Es) as (s'' & U & Fu & L & _). exists s''. rewrite Fu. auto.
    + intros r' t' b n Hv.
      assert (OLD : at_ Nat.ltb (face (caches w r') t') b = Some n -> exists s0 : set,
        update (sets w) a (Some (registerDestructorListener s r)) b = Some s0 /\
        In r' (listeners s0) /\ forall m v, at_ container_less n m = Some v ->
        filled (face_possible t' (dimension (rules r'))) t' (functions s0) (map (trans m) (points (rules r'))) = Some v).
      { intro Hv'. destruct (g_face _ _ Hg _ _ _ _ Hv') as (s' & Es & I & E').
        destruct (registered w a s r b s' S Es) as (s'' & U & Fu & L & _). exists s''. rewrite Fu. auto. }
      destruct (Nat.eq_dec r' r) as [->|N]; [|rewrite update_other in Hv by assumption; auto].
      rewrite update_same in Hv. cbn in Hv. destruct (table_dec t' t) as [->|N]; [|rewrite change_other in Hv by assumption; auto].
      rewrite change_same in Hv. destruct (Nat.eq_dec b a) as [->|N].
      * rewrite at_assign_same in Hv by apply ltb_same. injection Hv as <-.
        destruct (registered w a s r a s S S) as (s'' & U & Fu & L & R). exists s''. rewrite Fu. repeat split; auto.
        intros m' v' Hm. destruct (same_key container_less m m') eqn:K.
        -- apply container_same in K. subst m'. rewrite at_assign_same in Hm by apply container_same. injection Hm as <-. exact E.
        -- rewrite at_assign_other in Hm; [now apply IN|apply container_same|].
           intro K'. apply container_same in K'. congruence.
      * rewrite at_assign_other in Hv; [auto|apply ltb_same|congruence].
Qed.

Notation step := (step value rules transform1 transform0).
Notation run := (run value rules transform1 transform0).

Lemma good_step : forall o M w w' out, good M w -> step o w = Some (w', out) ->
  exists M', does value rules trans o M M' out /\ good M' w'.
Proof.
  intros o M w w' out Hg H. destruct o; cbn [QuadCache_model.step] in H.
  - destruct (newSet a w) eqn:E; [|discriminate]. injection H as <- <-. eapply good_new; eassumption.
  - destruct (deleteSet a w) eqn:E; [|discriminate]. injection H as <- <-. eapply good_delete; eassumption.
  - destruct (addBasisFunction a f w) eqn:E; [|discriminate]. injection H as <- <-. eapply good_add; eassumption.
  - destruct (eval _ _ _ _ _ _ _ _) as [[w0 v]|] eqn:E; [|discriminate]. injection H as <- <-.
    exists M. eapply good_eval; eassumption.
  - destruct (evalFace _ _ _ _ _ _ _ _ _ _ _) as [[w0 v]|] eqn:E; [|discriminate]. injection H as <- <-.
    exists M. eapply good_eval_face; eassumption.
Qed.

(** what the specification allows does not fail *)
Lemma step_defined : forall o M w M' out, good M w -> does value rules trans o M M' out -> step o w <> None.
Proof.
  intros o M w M' out Hg H. inversion H; subst; cbn [QuadCache_model.step].
  - unfold newSet. pose proof (g_sets _ _ Hg a) as E. rewrite H0 in E. destruct (sets w a); discriminate.
  - unfold deleteSet. pose proof (g_sets _ _ Hg a) as E. destruct (sets w a); [discriminate|]. cbn in E. congruence.
  - unfold addBasisFunction. pose proof (g_sets _ _ Hg a) as E. rewrite H0 in E. destruct (sets w a); discriminate.
  - pose proof (g_sets _ _ Hg a) as E. rewrite H0 in E. unfold eval. destruct (sets w a) as [s|] eqn:S; [|discriminate].
    cbn in E. injection E as <-.
    assert (Bi : i < length (points (rules r))) by (apply nth_error_Some; congruence).
    assert (Bj : j < length (functions s)) by (apply nth_error_Some; congruence).
    rewrite (proj2 (Nat.ltb_lt _ _) Bi), (proj2 (Nat.ltb_lt _ _) Bj). cbn [andb].
    destruct (at_ _ _ _) as [v|] eqn:C.
    + destruct (g_direct _ _ Hg _ _ _ _ C) as (s' & S' & I & E). rewrite S in S'. injection S' as <-.
      destruct (fill_entry _ _ _ _ _ i j E Bi Bj) as (D & f' & p' & Ef & Ep & Ev). rewrite Ev. discriminate.
    + rewrite (proj2 (direct_sensible _ _) H3). destruct (fill_ok t (functions s) (points (rules r))) as (v & E).
      rewrite E. destruct (fill_entry _ _ _ _ _ i j E Bi Bj) as (D & f' & p' & Ef & Ep & Ev). rewrite Ev. discriminate.
  - pose proof (g_sets _ _ Hg a) as E. rewrite H0 in E. unfold evalFace. destruct (sets w a) as [s|] eqn:S; [|discriminate].
    cbn in E. injection E as <-.
    assert (Bi : i < length (points (rules r))) by (apply nth_error_Some; congruence).
    assert (Bj : j < length (functions s)) by (apply nth_error_Some; congruence).
    rewrite (proj2 (Nat.ltb_lt _ _) Bi), (proj2 (Nat.ltb_lt _ _) Bj). cbn [andb].
    assert (Bm : i < length (map (trans m) (points (rules r)))) by now rewrite map_length.
    set (inner := match at_ Nat.ltb (face (caches w r) t) a with None => [] | Some n => n end).
    destruct (at_ container_less inner m) as [v|] eqn:C.
    + unfold inner in C. destruct (at_ Nat.ltb (face (caches w r) t) a) as [n|] eqn:C'; [|discriminate].
      destruct (g_face _ _ Hg _ _ _ _ C') as (s' & S' & I & E). rewrite S in S'. injection S' as <-.
      destruct (fill_entry _ _ _ _ _ i j (E _ _ C) Bm Bj) as (D & f' & p' & Ef & Ep & Ev). rewrite Ev. discriminate.
    + rewrite (proj2 (face_sensible _ _) H3). destruct (fill_ok t (functions s) (map (trans m) (points (rules r)))) as (v & E).
      rewrite E. destruct (fill_entry _ _ _ _ _ i j E Bm Bj) as (D & f' & p' & Ef & Ep & Ev). rewrite Ev. discriminate.
Qed.

Lemma does_memory : forall o M M1 M2 out1 out2, does value rules trans o M M1 out1 -> does value rules trans o M M2 out2 ->
  out1 = out2 /\ forall a, M1 a = M2 a.
Proof.
  intros o M M1 M2 out1 out2 H1 H2; destruct H1; inversion H2; subst; split; try congruence; try reflexivity.
  all: intro x.
  all: match goal with X : forall b, b <> ?a -> _ |- _ => destruct (Nat.eq_dec x a) as [->|N]; [congruence|] end.
  all: repeat match goal with X : forall b, b <> _ -> _ |- _ => specialize (X x N) end; congruence.
Qed.

Lemma good_ext : forall (M M' : memory) w, (forall a, M a = M' a) -> good M w -> good M' w.
Proof. intros M M' w E [A B C]. split; auto. intro a. now rewrite A. Qed.

Lemma coherent_gen : forall l M w outs, good M w -> (run l w = Some outs <-> does_all value rules trans l M outs).
Proof.
  induction l as [|o l IH]; intros M w outs Hg; cbn [QuadCache_model.run].
  - split; intro H; [injection H as <-; constructor|inversion H; reflexivity].
  - split.
    + destruct (step o w) as [[w' out]|] eqn:E; [|discriminate]. intro H.
      destruct (run l w') as [rest|] eqn:R; [|discriminate]. injection H as <-.
      destruct (good_step _ _ _ _ _ Hg E) as (M' & D & Hg'). econstructor; [exact D|]. apply (IH M' w' rest Hg'). exact R.
    + intro H. inversion H as [|o0 l0 M0 M' out rest D0 A E1 E2 E3]; subst.
      destruct (step o w) as [[w' out']|] eqn:E; [|exfalso; eapply step_defined; eassumption].
      destruct (good_step _ _ _ _ _ Hg E) as (M2 & D & Hg').
      destruct (does_memory _ _ _ _ _ _ D D0) as (<- & EM).
      apply (IH M' w' rest (good_ext _ _ _ EM Hg')) in A. rewrite A. reflexivity.
Qed.

Lemma coherent : forall l outs, run l start = Some outs <-> does_all value rules trans l empty outs.
Proof. intros. apply coherent_gen. apply good_start. Qed.
End Proofs.
