From Coq Require Import List Arith Lia.
From Verif Require Import Lazy_model Lazy_spec.
Import ListNotations.

Section Proofs.
Context {Env T : Type}.
Variable compute : Env -> nat -> T -> T.
Variable dflt : T.
Hypothesis overwrites : forall e i t t', compute e i t = compute e i t'.

Notation step := (step compute dflt).
Notation run := (run compute dflt).

Lemma run_app h1 : forall s h2,
  run s (h1 ++ h2) = match run s h1 with None => None | Some s' => run s' h2 end.
Proof.
  induction h1 as [|o h1 IH]; intros s h2; [reflexivity|].
  cbn [app Lazy_model.run]. destruct (step s o) as [[s' r]|]; auto.
Qed.

Lemma update_length (l : list (bool * T)) i x : length (update l i x) = length l.
Proof. revert i; induction l; intros [|i]; simpl; auto. Qed.
Lemma update_same (l : list (bool * T)) i x : i < length l -> nth_error (update l i x) i = Some x.
Proof. revert i; induction l; intros [|i]; simpl; intros; try lia; auto. apply IHl. lia. Qed.
Lemma update_other (l : list (bool * T)) i j x : i <> j -> nth_error (update l i x) j = nth_error l j.
Proof. revert i j; induction l; intros [|i] [|j]; simpl; intros; try lia; auto. Qed.

Lemma step_env s o s' r : step s o = Some (s', r) ->
  env s' = match o with SetEnv e => e | _ => env s end.
Proof.
  destruct o; cbn [Lazy_model.step]; intros H.
  - inversion H; reflexivity.
  - inversion H; reflexivity.
  - inversion H; reflexivity.
  - unfold get in H. destruct (nth_error (values s) i) as [[[] v]|]; inversion H; reflexivity.
Qed.

Lemma run_env h : forall s s', run s h = Some s' -> env s' = env_after (env s) h.
Proof.
  induction h as [|o h IH]; intros s s' H; cbn in H.
  - inversion H; reflexivity.
  - destruct (step s o) as [[s1 r]|] eqn:E; [|discriminate].
    rewrite (IH _ _ H). cbn. rewrite (step_env _ _ _ _ E). reflexivity.
Qed.

Lemma step_size s o s' r : step s o = Some (s', r) ->
  length (values s') = match o with ResetSize n => n | _ => length (values s) end.
Proof.
  destruct o; cbn [Lazy_model.step]; intros H.
  - inversion H; reflexivity.
  - inversion H; subst; cbn. apply map_length.
  - inversion H; subst; cbn. unfold resize.
    rewrite app_length, repeat_length, firstn_length. lia.
  - unfold get in H. destruct (nth_error (values s) i) as [[[] v]|]; inversion H; subst; cbn; auto.
    apply update_length.
Qed.

Lemma run_size h : forall s s', run s h = Some s' ->
  length (values s') = fold_left (fun n o => match o with ResetSize n' => n' | _ => n end) h (length (values s)).
Proof.
  induction h as [|o h IH]; intros s s' H; cbn in H.
  - inversion H; reflexivity.
  - destruct (step s o) as [[s1 r]|] eqn:E; [|discriminate].
    rewrite (IH _ _ H). cbn. rewrite (step_size _ _ _ _ E). reflexivity.
Qed.

(** after a reset all entries are marked invalid *)
Definition invalid (s : state Env T) (i : nat) : Prop :=
  forall b v, nth_error (values s) i = Some (b, v) -> b = false.

Lemma reset_invalid s o s' r i : step s o = Some (s', r) -> is_reset o -> invalid s' i.
Proof.
  destruct o; cbn; intros H Hr; try contradiction; inversion H; subst; intros b v; cbn.
  - rewrite nth_error_map. destruct (nth_error (values s) i); cbn; congruence.
  - unfold resize. intros Hn.
    assert (Hin : In (b, v) (firstn n (map (fun e => (false, snd e)) (values s)) ++
                             repeat (false, dflt) (n - length (map (fun e => (false, snd e)) (values s)))))
      by (eapply nth_error_In; eauto).
    apply in_app_or in Hin as [Hin|Hin].
    + assert (Hin' : In (b, v) (map (fun e => (false, snd e)) (values s))).
      { rewrite <- (firstn_skipn n (map _ (values s))). apply in_or_app. left. exact Hin. }
      apply in_map_iff in Hin' as [x [E _]]. congruence.
    + apply repeat_spec in Hin. congruence.
Qed.

Lemma keeps_invalid h : forall s s' i, run s h = Some s' -> no_reset h -> no_get i h ->
  invalid s i -> invalid s' i.
Proof.
  induction h as [|o h IH]; intros s s' i H Hr Hg Hi; cbn in H.
  - inversion H; subst; exact Hi.
  - destruct (step s o) as [[s1 r]|] eqn:E; [|discriminate].
    eapply IH; [exact H| | |].
    + intros x Hx. apply Hr. right. exact Hx.
    + intros Hx. apply Hg. right. exact Hx.
    + destruct o as [e| |n|j]; cbn in E.
      * inversion E; subst. exact Hi.
      * exfalso. apply (Hr Reset); [left; reflexivity|exact I].
      * exfalso. apply (Hr (ResetSize n)); [left; reflexivity|exact I].
      * unfold get in E. destruct (nth_error (values s) j) as [[[] v]|]; inversion E; subst; [exact Hi|].
        intros b w Hn. cbn in Hn. rewrite update_other in Hn.
        -- eapply Hi; exact Hn.
        -- intros ->. apply Hg. left. reflexivity.
Qed.

Definition cached (s : state Env T) (i : nat) (v : T) : Prop := nth_error (values s) i = Some (true, v).

Lemma keeps_cached h : forall s s' i v, run s h = Some s' -> no_reset h -> cached s i v -> cached s' i v.
Proof.
  induction h as [|o h IH]; intros s s' i v H Hr Hi; cbn in H.
  - inversion H; subst; exact Hi.
  - destruct (step s o) as [[s1 r]|] eqn:E; [|discriminate].
    eapply IH; [exact H| |].
    + intros x Hx. apply Hr. right. exact Hx.
    + unfold cached in *. destruct o as [e| |n|j]; cbn in E.
      * inversion E; subst. exact Hi.
      * exfalso. apply (Hr Reset); [left; reflexivity|exact I].
      * exfalso. apply (Hr (ResetSize n)); [left; reflexivity|exact I].
      * unfold get in E. destruct (nth_error (values s) j) as [[[] w]|] eqn:Ej; inversion E; subst; [exact Hi|].
        cbn. rewrite update_other; [exact Hi|]. intros ->. congruence.
Qed.

Lemma legal_runs h : forall s, length (values s) = 0 \/ True ->
  (forall h1 i h2, h = h1 ++ Get i :: h2 ->
     i < fold_left (fun n o => match o with ResetSize n' => n' | _ => n end) h1 (length (values s))) ->
  exists s', run s h = Some s'.
Proof.
  induction h as [|o h IH]; intros s _ Hl; cbn.
  - eauto.
  - destruct (step s o) as [[s1 r]|] eqn:E.
    + apply IH; [tauto|]. intros h1 i h2 ->.
      specialize (Hl (o :: h1) i h2 eq_refl). cbn in Hl. rewrite (step_size _ _ _ _ E). exact Hl.
    + exfalso. destruct o; cbn in E; try discriminate. unfold get in E.
      specialize (Hl [] i h eq_refl). cbn in Hl.
      destruct (nth_error (values s) i) as [[[] v]|] eqn:En; try discriminate.
      apply nth_error_None in En. lia.
Qed.

Lemma legal_run_start e h : legal h -> exists s, run (start e) h = Some s.
Proof. intros H. apply legal_runs; [tauto|]. intros h1 i h2 E. exact (H h1 i h2 E). Qed.

Lemma legal_app_l (h1 h2 : list (op Env)) : legal (h1 ++ h2) -> legal h1.
Proof. intros H a i b E. apply (H a i (b ++ h2)). rewrite E, <- app_assoc. reflexivity. Qed.

(** first request after a reset *)
Lemma get_fresh e pre o mid i t :
  legal (pre ++ o :: mid) -> is_reset o -> no_reset mid -> no_get i mid ->
  i < size_after (pre ++ o :: mid) ->
  get_after compute dflt e (pre ++ o :: mid) i =
  Some (compute (env_after e (pre ++ o :: mid)) i t, true).
Proof.
  intros Hl Ho Hr Hg Hs. destruct (legal_run_start e _ Hl) as [s Hrun].
  unfold get_after. rewrite Hrun. unfold get.
  pose proof (run_env _ _ _ Hrun) as He. pose proof (run_size _ _ _ Hrun) as Hz.
  change (length (values (start e))) with 0 in Hz. fold (size_after (pre ++ o :: mid)) in Hz.
  change (env (start e)) with e in He.
  destruct (nth_error (values s) i) as [[b v]|] eqn:En.
  2:{ apply nth_error_None in En. change (@nil (bool * T)) with (values (@start Env T e)) in Hz. cbn in Hz. unfold size_after in *. lia. }
  assert (Hb : b = false).
  { rewrite run_app in Hrun. destruct (run (start e) pre) as [s0|] eqn:E0; [|discriminate].
    cbn [Lazy_model.run] in Hrun. destruct (step s0 o) as [[s1 r]|] eqn:E1; [|discriminate].
    eapply (keeps_invalid _ _ _ i Hrun Hr Hg); [eapply reset_invalid; eauto|exact En]. }
  subst b. rewrite He. f_equal. f_equal. apply overwrites.
Qed.

(** later requests before the next reset *)
Lemma get_cached e pre i mid v ran :
  legal (pre ++ Get i :: mid) -> no_reset mid ->
  get_after compute dflt e pre i = Some (v, ran) ->
  get_after compute dflt e (pre ++ Get i :: mid) i = Some (v, false).
Proof.
  intros Hl Hr Hv. destruct (legal_run_start e _ Hl) as [s Hrun].
  unfold get_after in *. rewrite Hrun. rewrite run_app in Hrun.
  destruct (run (start e) pre) as [s0|] eqn:E0; [|discriminate].
  cbn [Lazy_model.run Lazy_model.step] in Hrun.
  destruct (get compute s0 i) as [[[w ran'] s1]|] eqn:Eg; [|discriminate].
  injection Hv as -> ->.
  assert (Hc : cached s1 i v).
  { unfold get in Eg. unfold cached. destruct (nth_error (values s0) i) as [[[] u]|] eqn:En; [| |discriminate].
    - inversion Eg; subst; exact En.
    - inversion Eg; subst; cbn. apply update_same. apply nth_error_Some. congruence. }
  pose proof (keeps_cached _ _ _ _ _ Hrun Hr Hc) as Hc'. unfold cached in Hc'.
  unfold get. rewrite Hc'. reflexivity.
Qed.

(** split a history without resets at the first request for [i] *)
Lemma first_get (i : nat) (h : list (op Env)) :
  no_get i h \/ exists a b, h = a ++ Get i :: b /\ no_get i a.
Proof.
  induction h as [|o h IH].
  - left. intros [].
  - assert (D : o = Get i \/ o <> Get i).
    { destruct o as [| | |j]; try (right; discriminate).
      destruct (Nat.eq_dec j i) as [->|N]; [left; reflexivity|right; congruence]. }
    destruct D as [->|N].
    + right. exists [], h. split; [reflexivity|]. intros [].
    + destruct IH as [IH|[a [b [-> Ha]]]].
      * left. intros [E|E]; [congruence|contradiction].
      * right. exists (o :: a), b. split; [reflexivity|]. intros [E|E]; [congruence|contradiction].
Qed.

Lemma env_after_no_change e (h : list (op Env)) : no_change h -> env_after e h = e.
Proof.
  revert e; induction h as [|o h IH]; intros e H; [reflexivity|].
  cbn. destruct o as [e'| | |]; try (apply IH; intros x Hx; apply (H x); right; exact Hx).
  exfalso. apply (H e'). left. reflexivity.
Qed.

Lemma env_after_app e (h1 h2 : list (op Env)) : env_after e (h1 ++ h2) = env_after (env_after e h1) h2.
Proof. apply fold_left_app. Qed.

(** the value is that of the current state when nothing changed since the reset *)
Lemma get_current e pre o mid i t :
  legal (pre ++ o :: mid) -> is_reset o -> no_reset mid -> no_change mid ->
  i < size_after (pre ++ o :: mid) ->
  exists ran, get_after compute dflt e (pre ++ o :: mid) i =
              Some (compute (env_after e (pre ++ o :: mid)) i t, ran).
Proof.
  intros Hl Ho Hr Hc Hs. destruct (first_get i mid) as [Hg|[a [b [-> Hga]]]].
  - exists true. apply get_fresh; auto.
  - exists false.
    replace (pre ++ o :: a ++ Get i :: b) with ((pre ++ o :: a) ++ Get i :: b) in *
      by (rewrite <- app_assoc; reflexivity).
    assert (Hra : no_reset a) by (intros x Hx; apply Hr; apply in_or_app; left; exact Hx).
    assert (Hrb : no_reset b)
      by (intros x Hx; apply Hr; apply in_or_app; right; right; exact Hx).
    assert (Hca : no_change a) by (intros x Hx; apply (Hc x); apply in_or_app; left; exact Hx).
    assert (Hcb : no_change b)
      by (intros x Hx; apply (Hc x); apply in_or_app; right; right; exact Hx).
    rewrite (get_cached e (pre ++ o :: a) i b (compute (env_after e (pre ++ o :: a)) i t) true); auto.
    + rewrite (env_after_app e (pre ++ o :: a)). change (Get i :: b) with ([Get i] ++ b).
      rewrite (env_after_app _ [Get i]), (env_after_no_change _ b Hcb). reflexivity.
    + apply get_fresh; auto; [eapply legal_app_l; exact Hl|].
      exact (Hl (pre ++ o :: a) i b eq_refl).
Qed.

(** ** the single value cache *)
Lemma env1_fold h : forall s,
  env1 (fold_left (step1 compute) h s) = env_after1 (env1 s) h.
Proof.
  induction h as [|o h IH]; intros s; [reflexivity|].
  cbn [fold_left]. rewrite IH. unfold env_after1. cbn [fold_left]. f_equal.
  destruct o; cbn; auto. unfold get1. destruct (hasValue s); reflexivity.
Qed.

Lemma keeps1 h : forall s, (forall o, In o h -> o <> Reset1) -> hasValue s = true ->
  let s' := fold_left (step1 compute) h s in hasValue s' = true /\ value s' = value s.
Proof using Type.
  induction h as [|o h IH]; intros s Hr Hv; [auto|].
  cbn [fold_left]. assert (Hs : hasValue (step1 compute s o) = true /\ value (step1 compute s o) = value s).
  { destruct o; cbn; auto.
    - exfalso. apply (Hr Reset1); [left|]; reflexivity.
    - unfold get1. rewrite Hv. cbn. auto. }
  destruct Hs as [H1 H2]. destruct (IH (step1 compute s o)) as [A B]; auto.
  - intros x Hx. apply Hr. right. exact Hx.
  - split; [exact A|congruence].
Qed.

Lemma get1_cached e pre mid :
  (forall o, In o mid -> o <> Reset1) ->
  get1_after compute dflt e (pre ++ Get1 :: mid) = (fst (get1_after compute dflt e pre), false).
Proof using Type.
  intros Hr. unfold get1_after. rewrite fold_left_app. cbn [fold_left].
  set (s := fold_left (step1 compute) pre (start1 dflt e)).
  assert (H : hasValue (step1 compute s Get1) = true /\ value (step1 compute s Get1) = fst (fst (get1 compute s))).
  { cbn. unfold get1. destruct (hasValue s) eqn:E; cbn; split; solve [reflexivity|exact E]. }
  destruct H as [H1 H2]. destruct (keeps1 mid _ Hr H1) as [A B].
  unfold get1 at 1. rewrite A. cbn [fst]. rewrite B, H2. reflexivity.
Qed.

Lemma keeps_empty1 h : forall s : state1 Env T, (forall o, In o h -> o <> Get1) -> hasValue s = false ->
  hasValue (fold_left (step1 compute) h s) = false.
Proof using Type.
  induction h as [|o h IH]; intros s Hg Hv; [exact Hv|].
  cbn [fold_left]. apply IH.
  - intros x Hx. apply Hg. right. exact Hx.
  - destruct o; cbn; auto. exfalso. apply (Hg Get1); [left|]; reflexivity.
Qed.

Lemma get1_fresh e pre mid t :
  pre = [] \/ (exists p, pre = p ++ [Reset1]) -> (forall o, In o mid -> o <> Get1) ->
  get1_after compute dflt e (pre ++ mid) = (compute (env_after1 e (pre ++ mid)) 0 t, true).
Proof.
  intros Hp Hg. unfold get1_after.
  assert (H : hasValue (fold_left (step1 compute) (pre ++ mid) (start1 dflt e)) = false).
  { rewrite fold_left_app. apply keeps_empty1; [exact Hg|].
    destruct Hp as [->|[p ->]]; [reflexivity|]. rewrite fold_left_app. reflexivity. }
  pose proof (env1_fold (pre ++ mid) (start1 dflt e)) as He. cbn [env1 start1] in He.
  unfold get1. rewrite H, He. cbn [fst]. f_equal. apply overwrites.
Qed.
End Proofs.
