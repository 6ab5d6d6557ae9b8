From Coq Require Import FinFun Permutation List Arith Bool Lia.
From Verif Require Import LevelTree_model LevelTree_spec.
Import ListNotations.

(** * Loops *)
Lemma returns_ret {A} (r : A) : returns (fun _ => Some r) r.
Proof. exists 0; auto. Qed.
Lemma returns_bind {A B} (F : nat -> option A) (G : A -> nat -> option B) a b :
  returns F a -> returns (G a) b -> returns (fun n => do x <- F n ;; G x n) b.
Proof.
  intros [N HN] [M HM]. exists (max N M). intros n Hn.
  rewrite HN by lia. cbn. apply HM; lia.
Qed.
Lemma returns_ext {A} (F G : nat -> option A) a :
  (forall n, F n = G n) -> returns G a -> returns F a.
Proof. intros E [N HN]. exists N. intros n Hn. rewrite E. auto. Qed.
Lemma returns_const {A} (x : option A) a : x = Some a -> returns (fun _ => x) a.
Proof. intros ->. apply returns_ret. Qed.

(** A loop with separate bounds for its own rounds and for what its body uses. *)
Definition loops {St} (c : nat -> St -> option bool) (b : nat -> St -> option St) (s r : St) :=
  exists N, forall k n, N <= k -> N <= n -> while k (c n) (b n) s = Some r.
Lemma loops_stop {St} (c : nat -> St -> option bool) b s :
  returns (fun n => c n s) false -> loops c b s s.
Proof.
  intros [N HN]. exists N. intros k n _ Hn. specialize (HN n Hn).
  destruct k; cbn; rewrite HN; reflexivity.
Qed.
Lemma loops_step {St} (c : nat -> St -> option bool) b s s' r :
  returns (fun n => c n s) true -> returns (fun n => b n s) s' -> loops c b s' r -> loops c b s r.
Proof.
  intros [N HN] [M HM] [K HK]. exists (S (max N (max M K))). intros k n Hk Hn.
  destruct k as [|k]; [lia|]. cbn. rewrite HN by lia. cbn. rewrite HM by lia. cbn.
  apply HK; lia.
Qed.
Lemma loops_returns {St} (c : nat -> St -> option bool) b s r :
  loops c b s r -> returns (fun n => while n (c n) (b n) s) r.
Proof. intros [N HN]. exists N. intros n Hn. apply HN; lia. Qed.

Lemma app_cons_assoc {A} (a b : list A) x : rev a ++ x :: b = rev (x :: a) ++ b.
Proof. cbn. now rewrite <- app_assoc. Qed.

Ltac spl := repeat match goal with |- _ /\ _ => split end.

Section Proofs.
Context {V : Type}.
Notation T := (Tree V).
Notation I := (Iter V).
Notation mk b a ab c := (@Build_Iter V b a ab c).

Fixpoint Tree_ind' (P : T -> Prop)
  (H : forall v l d c, Forall P c -> P (Node v l d c)) (t : T) : P t :=
  match t with
  | Node v l d c => H v l d c ((fix go (c : list T) : Forall P c :=
      match c with [] => Forall_nil _ | x :: r => Forall_cons _ (Tree_ind' P H x) (go r) end) c)
  end.

Definition frameOf (b : list T) (t : T) (r : list T) : Frame V :=
  {| f_before := b; f_data := data t; f_level := level t; f_depth := depth t; f_after := r |}.
Lemma plug_frameOf b t r : plug (frameOf b t r) (children t) = t.
Proof. now destruct t. Qed.
Lemma frameOf_plug fr c : frameOf (f_before fr) (plug fr c) (f_after fr) = fr.
Proof. now destruct fr. Qed.

(** * All positions in pre- and post-order *)
Fixpoint preT (ab : list (Frame V)) (b : list T) (t : T) (r : list T) {struct t} : list I :=
  match t with
  | Node v l d c =>
      mk b (t :: r) ab 0 ::
      (fix go (b' : list T) (c : list T) {struct c} : list I :=
         match c with
         | [] => []
         | x :: c' => preT ({| f_before := b; f_data := v; f_level := l; f_depth := d; f_after := r |} :: ab)
                           b' x (c' ++ []) ++ go (x :: b') c'
         end) [] c
  end.
Fixpoint preF (ab : list (Frame V)) (b f r : list T) {struct f} : list I :=
  match f with
  | [] => []
  | x :: f' => preT ab b x (f' ++ r) ++ preF ab (x :: b) f' r
  end.
Lemma preT_eq ab b t r :
  preT ab b t r = mk b (t :: r) ab 0 :: preF (frameOf b t r :: ab) [] (children t) [].
Proof.
  destruct t as [v l d c]. cbn [preT children]. f_equal.
  unfold frameOf; cbn [data level depth].
  generalize (@nil T) at 2 3. induction c as [|x c IH]; intros b'; [reflexivity|].
  cbn [preF]. f_equal. apply IH.
Qed.
Fixpoint postT (ab : list (Frame V)) (b : list T) (t : T) (r : list T) {struct t} : list I :=
  match t with
  | Node v l d c =>
      (fix go (b' : list T) (c : list T) {struct c} : list I :=
         match c with
         | [] => []
         | x :: c' => postT ({| f_before := b; f_data := v; f_level := l; f_depth := d; f_after := r |} :: ab)
                           b' x (c' ++ []) ++ go (x :: b') c'
         end) [] c ++ [mk b (t :: r) ab 0]
  end.
Fixpoint postF (ab : list (Frame V)) (b f r : list T) {struct f} : list I :=
  match f with
  | [] => []
  | x :: f' => postT ab b x (f' ++ r) ++ postF ab (x :: b) f' r
  end.
Lemma postT_eq ab b t r :
  postT ab b t r = postF (frameOf b t r :: ab) [] (children t) [] ++ [mk b (t :: r) ab 0].
Proof.
  destruct t as [v l d c]. cbn [postT children]. f_equal.
  unfold frameOf; cbn [data level depth].
  generalize (@nil T) at 2 3. induction c as [|x c IH]; intros b'; [reflexivity|].
  cbn [postF]. f_equal. apply IH.
Qed.
Lemma preF_app ab b f g r : preF ab b (f ++ g) r = preF ab b f (g ++ r) ++ preF ab (rev f ++ b) g r.
Proof.
  revert b. induction f as [|x f IH]; intros b; [reflexivity|].
  cbn [app preF rev]. rewrite IH, <- !app_assoc. reflexivity.
Qed.
Lemma postF_app ab b f g r : postF ab b (f ++ g) r = postF ab b f (g ++ r) ++ postF ab (rev f ++ b) g r.
Proof.
  revert b. induction f as [|x f IH]; intros b; [reflexivity|].
  cbn [app postF rev]. rewrite IH, <- !app_assoc. reflexivity.
Qed.

(** * Iterators over a forest *)
Definition sibs (i : I) := rev (before i) ++ after i.
Fixpoint whole (ab : list (Frame V)) (s : list T) : list T :=
  match ab with
  | [] => s
  | fr :: up => whole up (rev (f_before fr) ++ plug fr s :: f_after fr)
  end.
Inductive ctxOk : nat -> list (Frame V) -> Prop :=
| ctx_nil : ctxOk 0 []
| ctx_cons : forall fr up, 1 <= f_depth fr ->
    Forall (consistent (f_level fr)) (f_before fr) -> Forall (consistent (f_level fr)) (f_after fr) ->
    ctxOk (f_level fr) up -> ctxOk (f_level fr + f_depth fr) (fr :: up).
Definition over (f : list T) (l : nat) (i : I) : Prop :=
  ctxOk l (above i) /\ Forall (consistent l) (before i) /\ Forall (consistent l) (after i) /\
  sibs i <> [] /\ whole (above i) (sibs i) = f.

Lemma consistent_level l (t : T) : consistent l t -> level t = l.
Proof. now inversion 1. Qed.
Lemma consistent_depth l (t : T) : consistent l t -> 1 <= depth t.
Proof. now inversion 1. Qed.
Lemma consistent_children l (t : T) : consistent l t -> Forall (consistent (l + depth t)) (children t).
Proof. now inversion 1. Qed.

Lemma over_counter f l i c : over f l i -> over f l (setCounter c i).
Proof. easy. Qed.
Lemma over_focus f l b t r ab c : over f l (mk b (t :: r) ab c) -> consistent l t.
Proof. intros (_ & _ & H & _). now inversion H. Qed.
Lemma over_next f l b t r ab c c' : over f l (mk b (t :: r) ab c) -> over f l (mk (t :: b) r ab c').
Proof.
  unfold over, sibs; cbn [before after above]. rewrite <- app_cons_assoc.
  intros (H1 & H2 & H3 & H4 & H5). inversion H3; subst. repeat split; auto.
Qed.
Lemma over_prev f l b t r ab c c' : over f l (mk (t :: b) r ab c) -> over f l (mk b (t :: r) ab c').
Proof.
  unfold over, sibs; cbn [before after above]. rewrite <- app_cons_assoc.
  intros (H1 & H2 & H3 & H4 & H5). inversion H2; subst. repeat split; auto.
Qed.
Lemma over_parent f l b t r fr up c c' : over f l (mk b (t :: r) (fr :: up) c) ->
  l = f_level fr + f_depth fr /\ 1 <= f_depth fr /\
  over f (f_level fr) (mk (f_before fr) (plug fr (rev b ++ t :: r) :: f_after fr) up c').
Proof.
  unfold over, sibs; cbn [before after above whole].
  intros (H1 & H2 & H3 & H4 & H5). inversion H1; subst. repeat split; auto.
  - constructor; auto. constructor; [lia|]. rewrite Forall_app. split; auto. now apply Forall_rev.
  - now destruct (rev (f_before fr)).
Qed.
Lemma over_child f l b t r ab c k c' : over f l (mk b (t :: r) ab c) -> k < length (children t) ->
  over f (l + depth t) (mk (rev (firstn k (children t))) (skipn k (children t)) (frameOf b t r :: ab) c').
Proof.
  intros H Hk. pose proof (over_focus _ _ _ _ _ _ _ H) as Ht. pose proof (consistent_level _ _ Ht) as <-.
  destruct H as (H1 & H2 & H3 & H4 & H5). unfold over, sibs in *; cbn [before after above whole] in *.
  rewrite rev_involutive, firstn_skipn, plug_frameOf. cbn [frameOf f_before f_after].
  pose proof (consistent_children _ _ Ht) as Hc. inversion H3; subst.
  assert (Hfs : Forall (consistent (level t + depth t)) (firstn k (children t)) /\
                Forall (consistent (level t + depth t)) (skipn k (children t))).
  { rewrite <- (firstn_skipn k (children t)), Forall_app in Hc. exact Hc. }
  repeat split; try tauto.
  - change (level t + depth t) with (f_level (frameOf b t r) + f_depth (frameOf b t r)).
    constructor; auto. now apply consistent_depth in Ht.
  - apply Forall_rev; tauto.
  - intros E. rewrite E in Hk. cbn in Hk; lia.
Qed.

(** * What lies ahead of and behind an iterator *)
Fixpoint fut (ab : list (Frame V)) (s : list T) : list I :=
  match ab with
  | [] => []
  | fr :: up => preF up (plug fr s :: f_before fr) (f_after fr) [] ++
                fut up (rev (f_before fr) ++ plug fr s :: f_after fr)
  end.
Definition TP (i : I) : list I := preF (above i) (before i) (after i) [] ++ fut (above i) (sibs i).
Definition rest (i : I) : list I :=
  match after i with
  | [] => fut (above i) (sibs i)
  | t :: r => preF (above i) (t :: before i) r [] ++ fut (above i) (sibs i)
  end.
Definition norm (i : I) : I := setCounter 0 i.
Definition positions (f : list T) : list I := preF [] [] f [].

Lemma TP_cons b t r ab c : TP (mk b (t :: r) ab c) =
  mk b (t :: r) ab 0 :: preF (frameOf b t r :: ab) [] (children t) [] ++ rest (mk b (t :: r) ab c).
Proof.
  unfold TP, rest; cbn [above before after preF]. rewrite app_nil_r, preT_eq.
  cbn [app]. now rewrite <- app_assoc.
Qed.
Lemma TP_next b t r ab c c' : TP (mk (t :: b) r ab c') = rest (mk b (t :: r) ab c).
Proof. unfold TP, rest, sibs; cbn [above before after]. now rewrite <- app_cons_assoc. Qed.
Lemma rest_parent b t fr up c c' :
  rest (mk (f_before fr) (plug fr (rev b ++ [t]) :: f_after fr) up c') = rest (mk b [t] (fr :: up) c).
Proof. reflexivity. Qed.
Lemma rest_counter i c : rest (setCounter c i) = rest i.
Proof. reflexivity. Qed.
Lemma TP_counter i c : TP (setCounter c i) = TP i.
Proof. reflexivity. Qed.
Lemma TP_child b t r ab c c' :
  TP (mk [] (children t) (frameOf b t r :: ab) c') =
  preF (frameOf b t r :: ab) [] (children t) [] ++ rest (mk b (t :: r) ab c).
Proof.
  unfold TP, rest, sibs; cbn [above before after fut rev app]. now rewrite plug_frameOf.
Qed.
Lemma rest_lastChild b t r ab c c' x ch : children t = ch ++ [x] ->
  rest (mk (rev ch) [x] (frameOf b t r :: ab) c') = rest (mk b (t :: r) ab c).
Proof.
  intros E. unfold rest, sibs; cbn [above before after fut preF app].
  rewrite rev_involutive, <- E, plug_frameOf. reflexivity.
Qed.

Lemma positions_split ab s :
  exists D, positions (whole ab s) = D ++ preF ab [] s [] ++ fut ab s.
Proof.
  revert s. induction ab as [|fr up IH]; intros s.
  - exists []. cbn. now rewrite app_nil_r.
  - cbn [whole]. destruct (IH (rev (f_before fr) ++ plug fr s :: f_after fr)) as [D E].
    rewrite E, preF_app. cbn [preF]. rewrite rev_involutive, !app_nil_r, preT_eq, frameOf_plug.
    exists (D ++ preF up [] (rev (f_before fr)) (plug fr s :: f_after fr) ++
            [mk (f_before fr) (plug fr s :: f_after fr) up 0]).
    cbn [fut children plug]. rewrite <- !app_assoc. reflexivity.
Qed.
Lemma positions_suffix f l i : over f l i -> exists D, positions f = D ++ TP i.
Proof.
  intros (_ & _ & _ & _ & <-). destruct (positions_split (above i) (sibs i)) as [D E].
  unfold TP. rewrite E. unfold sibs at 1. rewrite preF_app, rev_involutive, !app_nil_r.
  exists (D ++ preF (above i) [] (rev (before i)) (after i)). now rewrite <- !app_assoc.
Qed.

(** * Places are unique *)
Definition ctxPlace (ab : list (Frame V)) := map (fun fr => length (f_before fr)) ab.
Lemma preT_place : forall t ab b r i, In i (preT ab b t r) ->
  exists p, place i = p ++ length b :: ctxPlace ab.
Proof.
  induction t as [v l d c IH] using Tree_ind'. intros ab b r i. rewrite preT_eq. cbn [children].
  intros [<-|Hi]; [exists []; reflexivity|].
  revert Hi. generalize (@nil T) at 1. induction c as [|x c IHc]; intros b' Hi; [destruct Hi|].
  inversion IH; subst. cbn [preF] in Hi. apply in_app_or in Hi. destruct Hi as [Hi|Hi].
  - destruct (H1 _ _ _ _ Hi) as [p E]. exists (p ++ [length b']). rewrite E, <- app_assoc. reflexivity.
  - revert Hi. apply IHc. auto.
Qed.
Lemma preF_place : forall f ab b r i, In i (preF ab b f r) ->
  exists p k, place i = p ++ (length b + k) :: ctxPlace ab.
Proof.
  induction f as [|x f IH]; intros ab b r i Hi; [destruct Hi|].
  cbn [preF] in Hi. apply in_app_or in Hi. destruct Hi as [Hi|Hi].
  - destruct (preT_place _ _ _ _ _ Hi) as [p E]. exists p, 0. now rewrite Nat.add_0_r.
  - destruct (IH _ _ _ _ Hi) as (p & k & E). exists p, (S k). rewrite E. cbn [length].
    now rewrite Nat.add_succ_comm.
Qed.
Lemma suffix_eq {A} (p q a b : list A) : length a = length b -> p ++ a = q ++ b -> a = b.
Proof.
  intros HL E. assert (length p = length q).
  { apply (f_equal (@length A)) in E. rewrite !app_length in E. lia. }
  assert (skipn (length p) (p ++ a) = skipn (length q) (q ++ b)) by now rewrite E, H.
  now rewrite !skipn_app, !skipn_all, !Nat.sub_diag in H0.
Qed.
Lemma nodup_app {A} (a b : list A) : NoDup a -> NoDup b -> (forall x, In x a -> In x b -> False) ->
  NoDup (a ++ b).
Proof.
  intros Ha Hb H. induction Ha; [exact Hb|]. cbn. constructor.
  - intros Hi. apply in_app_or in Hi. destruct Hi as [Hi|Hi]; [auto|]. apply (H x); cbn; auto.
  - apply IHHa. intros y Hy. apply H; cbn; auto.
Qed.
Lemma preF_nodup_gen : forall f, Forall (fun t => forall ab b r, NoDup (map place (preT ab b t r))) f ->
  forall ab b r, NoDup (map place (preF ab b f r)).
Proof.
  induction 1 as [|x f Hx Hf IH]; intros ab b r; [constructor|].
  cbn [preF]. rewrite map_app. apply nodup_app; auto.
  intros p H1 H2. apply in_map_iff in H1. apply in_map_iff in H2.
  destruct H1 as (i & E1 & Hi). destruct H2 as (j & E2 & Hj).
  destruct (preT_place _ _ _ _ _ Hi) as [p1 P1]. destruct (preF_place _ _ _ _ _ Hj) as (p2 & k & P2).
  assert (length b :: ctxPlace ab = (length (x :: b) + k) :: ctxPlace ab).
  { apply (suffix_eq p1 p2); [reflexivity|]. congruence. }
  inversion H. cbn in H1. lia.
Qed.
Lemma preT_nodup : forall t ab b r, NoDup (map place (preT ab b t r)).
Proof.
  induction t as [v l d c IH] using Tree_ind'. intros ab b r. rewrite preT_eq. cbn [children map].
  constructor; [|now apply preF_nodup_gen].
  intros Hi. apply in_map_iff in Hi. destruct Hi as (i & E & Hi).
  destruct (preF_place _ _ _ _ _ Hi) as (p & k & P). apply (f_equal (@length nat)) in P.
  rewrite E in P. rewrite app_length in P. unfold place, ctxPlace in P.
  cbn [above before length map] in P. lia.
Qed.
Lemma positions_nodup f : NoDup (map place (positions f)).
Proof. apply preF_nodup_gen. apply Forall_forall. intros t _. apply preT_nodup. Qed.
Lemma nodup_map_inj {A B} (g : A -> B) l x y : NoDup (map g l) -> In x l -> In y l -> g x = g y -> x = y.
Proof.
  induction l as [|a l IH]; intros H Hx Hy E; [destruct Hx|].
  cbn in H. inversion H; subst. destruct Hx as [<-|Hx], Hy as [<-|Hy]; auto.
  - exfalso. apply H2. rewrite E. now apply in_map.
  - exfalso. apply H2. rewrite <- E. now apply in_map.
Qed.
Lemma norm_in f l b t r ab c : over f l (mk b (t :: r) ab c) -> In (mk b (t :: r) ab 0) (positions f).
Proof.
  intros H. destruct (positions_suffix _ _ _ H) as [D ->]. apply in_or_app. right.
  rewrite TP_cons. now left.
Qed.
Lemma same_place f l l' b t r ab c b' t' r' ab' c' :
  over f l (mk b (t :: r) ab c) -> over f l' (mk b' (t' :: r') ab' c') ->
  place (mk b (t :: r) ab c) = place (mk b' (t' :: r') ab' c') ->
  mk b (t :: r) ab 0 = mk b' (t' :: r') ab' 0.
Proof.
  intros H H' E. apply (nodup_map_inj place (positions f)); try (eapply norm_in; eassumption).
  - apply positions_nodup.
  - exact E.
Qed.

(** * Climbing and descending *)
Definition isLast1 (r : list T) : bool := match r with [] => true | _ => false end.
Lemma lastSibling_eq b t r ab c : isLastSibling (mk b (t :: r) ab c) = Some (isLast1 r).
Proof.
  unfold isLastSibling; cbn [entry after bind before]. f_equal. destruct r; cbn [isLast1 length].
  - apply Nat.eqb_eq. lia.
  - apply Nat.eqb_neq. lia.
Qed.
Lemma root_eq f l b t r ab c : over f l (mk b (t :: r) ab c) ->
  isRoot (mk b (t :: r) ab c) = Some (match ab with [] => true | _ => false end).
Proof.
  intros H. unfold isRoot; cbn. f_equal. rewrite (consistent_level _ _ (over_focus _ _ _ _ _ _ _ H)).
  destruct H as (H & _). inversion H; cbn [above] in *; subst; [reflexivity|].
  apply Nat.eqb_neq. lia.
Qed.
Lemma parent_counter b t r ab c : moveToParent (mk b (t :: r) ab (S c)) = Some (mk b (t :: r) ab c).
Proof. unfold moveToParent; cbn. unfold setCounter; cbn. now rewrite Nat.sub_0_r. Qed.
Lemma parent_up f l b t r fr up : over f l (mk b (t :: r) (fr :: up) 0) ->
  moveToParent (mk b (t :: r) (fr :: up) 0) =
  Some (mk (f_before fr) (plug fr (rev b ++ t :: r) :: f_after fr) up (f_depth fr - 1)).
Proof.
  intros H. unfold moveToParent; cbn [after counter Nat.ltb Nat.leb above before].
  pose proof (consistent_level _ _ (over_focus _ _ _ _ _ _ _ H)) as E.
  destruct (over_parent _ _ _ _ _ _ _ _ 0 H) as (El & Hd & _).
  destruct (Nat.eqb_spec (level t) 0); [lia|reflexivity].
Qed.

Definition climbs (cond : I -> option bool) (i j : I) := loops (fun _ => cond) (fun _ => moveToParent) i j.

Lemma climbLast f : forall ab l b t r c, over f l (mk b (t :: r) ab c) ->
  exists l' b' t' r' ab' c',
    climbs (fun i => andb' (not' (isRoot i)) (isLastSibling i)) (mk b (t :: r) ab c)
           (mk b' (t' :: r') ab' c') /\
    climbs (fun i => andb' (isLastSibling i) (not' (isRoot i))) (mk b (t :: r) ab c)
           (mk b' (t' :: r') ab' c') /\
    over f l' (mk b' (t' :: r') ab' c') /\
    rest (mk b' (t' :: r') ab' c') = rest (mk b (t :: r) ab c) /\
    l' + c' <= l + c /\ (r' = [] -> ab' = []) /\ (c < depth t -> c' < depth t').
Proof.
  assert (Stop : forall ab l b t r c, over f l (mk b (t :: r) ab c) -> (r = [] -> ab = []) ->
    climbs (fun i => andb' (not' (isRoot i)) (isLastSibling i)) (mk b (t :: r) ab c) (mk b (t :: r) ab c) /\
    climbs (fun i => andb' (isLastSibling i) (not' (isRoot i))) (mk b (t :: r) ab c) (mk b (t :: r) ab c)).
  { intros ab l b t r c H E. split; apply loops_stop, returns_const;
      rewrite (root_eq _ _ _ _ _ _ _ H), lastSibling_eq;
      destruct ab, r; try reflexivity; specialize (E eq_refl); discriminate. }
  intros ab. induction ab as [|fr up IH]; intros l b t r c H.
  - exists l, b, t, r, [], c. pose proof (Stop _ _ _ _ _ _ H (fun _ => eq_refl)).
    spl; try tauto; auto.
  - destruct r as [|r0 r].
    2:{ exists l, b, t, (r0 :: r), (fr :: up), c.
        assert (E : r0 :: r = [] -> fr :: up = []) by discriminate.
        pose proof (Stop _ _ _ _ _ _ H E). spl; try tauto; auto. }
    induction c as [|c IHc].
    + destruct (over_parent _ _ _ _ _ _ _ _ (f_depth fr - 1) H) as (El & Hd & Hp).
      destruct (IH _ _ _ _ _ Hp) as (l' & b' & t' & r' & ab' & c' & L1 & L2 & Ho & Hr & Hl & He & Hv).
      exists l', b', t', r', ab', c'. spl; auto; [..|lia|].
      * eapply loops_step; [| |exact L1]; apply returns_const.
        -- rewrite (root_eq _ _ _ _ _ _ _ H), lastSibling_eq. reflexivity.
        -- exact (parent_up _ _ _ _ _ _ _ H).
      * eapply loops_step; [| |exact L2]; apply returns_const.
        -- rewrite (root_eq _ _ _ _ _ _ _ H), lastSibling_eq. reflexivity.
        -- exact (parent_up _ _ _ _ _ _ _ H).
      * intros _. apply Hv. cbn. lia.
    + destruct IHc as (l' & b' & t' & r' & ab' & c' & L1 & L2 & Ho & Hr & Hl & He & Hv); [exact H|].
      exists l', b', t', r', ab', c'. spl; auto; [..|lia|].
      * eapply loops_step; [| |exact L1]; apply returns_const.
        -- rewrite (root_eq _ _ _ _ _ _ _ H), lastSibling_eq. reflexivity.
        -- apply parent_counter.
      * eapply loops_step; [| |exact L2]; apply returns_const.
        -- rewrite (root_eq _ _ _ _ _ _ _ H), lastSibling_eq. reflexivity.
        -- apply parent_counter.
      * intros Hc. apply Hv. lia.
Qed.

Lemma hasChild_eq b t r ab c : hasChild (mk b (t :: r) ab c) =
  Some (match children t with [] => false | _ => true end).
Proof. unfold hasChild; cbn. f_equal. now destruct (children t). Qed.
Lemma canIncrease_eq b t r ab c : canIncreaseCounter (mk b (t :: r) ab c) = (c <? depth t - 1).
Proof. reflexivity. Qed.

Lemma child_counter k b t r ab c : S c < depth t ->
  moveToChild k (mk b (t :: r) ab c) = Some (mk b (t :: r) ab (S c)).
Proof.
  intros H. unfold moveToChild; cbn [after]. rewrite canIncrease_eq.
  destruct (Nat.ltb_spec c (depth t - 1)); [reflexivity|lia].
Qed.
Lemma child_down k b t r ab c : depth t <= S c -> k < length (children t) ->
  moveToChild k (mk b (t :: r) ab c) =
  Some (mk (rev (firstn k (children t))) (skipn k (children t)) (frameOf b t r :: ab) 0).
Proof.
  intros H Hk. unfold moveToChild; cbn [after]. rewrite canIncrease_eq.
  destruct (Nat.ltb_spec c (depth t - 1)); [lia|].
  unfold iteratorAt. destruct (Nat.ltb_spec k (length (children t))); [|lia]. reflexivity.
Qed.
Lemma lastChild_counter b t r ab c : S c < depth t ->
  moveToLastChild (mk b (t :: r) ab c) = Some (mk b (t :: r) ab (S c)).
Proof. intros H. unfold moveToLastChild; cbn [entry after bind]. now apply child_counter. Qed.
Lemma lastChild_down b t r ab c ch x : depth t <= S c -> children t = ch ++ [x] ->
  moveToLastChild (mk b (t :: r) ab c) = Some (mk (rev ch) [x] (frameOf b t r :: ab) 0).
Proof.
  intros H E. unfold moveToLastChild; cbn [entry after bind]. rewrite child_down; auto.
  - rewrite E, app_length. cbn [length].
    replace (length ch + 1 - 1) with (length ch) by lia.
    rewrite firstn_app, firstn_all, skipn_app, skipn_all, Nat.sub_diag. cbn. now rewrite app_nil_r.
  - rewrite E, app_length. cbn. lia.
Qed.
Lemma over_lastChild f l b t r ab c ch x : over f l (mk b (t :: r) ab c) -> children t = ch ++ [x] ->
  over f (l + depth t) (mk (rev ch) [x] (frameOf b t r :: ab) 0).
Proof.
  intros H E. assert (Hk : length ch < length (children t)) by (rewrite E, app_length; cbn; lia).
  pose proof (over_child _ _ _ _ _ _ _ _ 0 H Hk) as H'. rewrite E in H'.
  rewrite firstn_app, firstn_all, skipn_app, skipn_all, Nat.sub_diag in H'. cbn in H'.
  now rewrite app_nil_r in H'.
Qed.

(** while hasChild moveToChild(last) ends at the rightmost leaf below. *)
Lemma descendLast f : forall t l b r ab c, over f l (mk b (t :: r) ab c) -> c < depth t ->
  exists l' b' t' r' ab' c',
    loops (fun _ => hasChild) (fun _ => moveToLastChild) (mk b (t :: r) ab c)
          (mk b' (t' :: r') ab' c') /\
    over f l' (mk b' (t' :: r') ab' c') /\ children t' = [] /\ c' < depth t' /\
    rest (mk b' (t' :: r') ab' c') = rest (mk b (t :: r) ab c) /\
    (r = [] -> r' = []) /\ (children t = [] -> c' = c) /\ (children t <> [] -> c' = 0).
Proof.
  induction t as [v l0 d ch IH] using Tree_ind'. intros l b r ab c H.
  set (t := Node v l0 d ch) in *.
  destruct (rev ch) as [|x rch] eqn:Er.
  - apply (f_equal (@rev T)) in Er. rewrite rev_involutive in Er. cbn in Er. subst ch.
    intros Hc. exists l, b, t, r, ab, c. spl; auto; try (subst t; cbn; congruence).
    apply loops_stop, returns_const. now rewrite hasChild_eq.
  - apply (f_equal (@rev T)) in Er. rewrite rev_involutive in Er. cbn in Er.
    set (ch' := rev rch) in *. assert (Ec : children t = ch' ++ [x]) by exact Er.
    assert (Hne : match children t with [] => false | _ => true end = true).
    { rewrite Ec. now destruct ch'. }
    assert (Hx : forall l b r ab c, over f l (mk b (x :: r) ab c) -> c < depth x ->
      exists l' b' t' r' ab' c',
      loops (fun _ => hasChild) (fun _ => moveToLastChild) (mk b (x :: r) ab c)
          (mk b' (t' :: r') ab' c') /\
      over f l' (mk b' (t' :: r') ab' c') /\ children t' = [] /\ c' < depth t' /\
      rest (mk b' (t' :: r') ab' c') = rest (mk b (x :: r) ab c) /\
      (r = [] -> r' = []) /\ (children x = [] -> c' = c) /\ (children x <> [] -> c' = 0)).
    { rewrite Er, Forall_app in IH. destruct IH as [_ IH]. inversion IH; subst. assumption. }
    intros Hc. remember (depth t - S c) as m eqn:Em. revert c H Hc Em.
    induction m as [|m IHm]; intros c H Hc Em.
    + pose proof (over_lastChild _ _ _ _ _ _ _ _ _ H Ec) as Ho.
      destruct (Hx _ _ _ _ _ Ho (consistent_depth _ _ (over_focus _ _ _ _ _ _ _ Ho)))
        as (l' & b' & t' & r' & ab' & c' & L & H1 & H2 & H3 & H4 & H5 & H6 & H7).
      exists l', b', t', r', ab', c'. spl; auto.
      * eapply loops_step; [| |exact L]; apply returns_const.
        -- now rewrite hasChild_eq, Hne.
        -- apply lastChild_down; [lia|exact Ec].
      * rewrite H4. apply rest_lastChild. exact Ec.
      * intros E0. rewrite E0 in Ec. now destruct ch'.
      * intros _. destruct (children x) eqn:Ecx; [apply H6; reflexivity|apply H7; discriminate].
    + destruct (IHm (S c)) as (l' & b' & t' & r' & ab' & c' & L & H1 & H2 & H3 & H4 & H5 & H6 & H7);
        [exact H|lia|lia|].
      exists l', b', t', r', ab', c'. spl; auto.
      * eapply loops_step; [| |exact L]; apply returns_const.
        -- now rewrite hasChild_eq, Hne.
        -- apply lastChild_counter. lia.
      * intros E0. rewrite E0 in Ec. now destruct ch'.
Qed.

(** * Stepping through the pre-order *)
Lemma nextPre f l b t r ab c : over f l (mk b (t :: r) ab c) -> c < depth t ->
  exists l' j, returns (fun n => moveToNextPreOrder n (mk b (t :: r) ab c)) j /\ over f l' j /\
    ((S c < depth t /\ l' = l /\ j = mk b (t :: r) ab (S c)) \/
     (depth t = S c /\ TP j = tl (TP (mk b (t :: r) ab c)) /\ counter j = 0 /\ (after j <> [] -> l' <= l + depth t) /\
      (after j = [] -> TP j = [] /\ exists t' b', before j = t' :: b' /\ children t' = []))).
Proof.
  intros H Hc. unfold moveToNextPreOrder. rewrite hasChild_eq, canIncrease_eq. cbn [bind].
  destruct (Nat.ltb_spec c (depth t - 1)) as [Hlt|Hge].
  { rewrite orb_true_r. exists l, (mk b (t :: r) ab (S c)). spl; auto.
    - apply returns_const. apply child_counter. lia.
    - left. spl; auto. lia. }
  rewrite orb_false_r. destruct (children t) as [|x ch] eqn:Ec.
  - destruct (climbLast f _ _ _ _ _ _ H) as (l' & b' & t' & r' & ab' & c' & L & _ & Ho & Hr & Hl & Hn & Hv).
    destruct r' as [|x r'].
    + specialize (Hn eq_refl). subst ab'.
      (* the last root: back to the last leaf *)
      assert (Hrest : rest (mk b (t :: r) ab c) = []) by (rewrite <- Hr; reflexivity).
      destruct (descendLast f _ _ _ _ _ _ Ho (Hv Hc)) as (l2 & b2 & t2 & r2 & ab2 & c2 & L2 & Ho2 & Hleaf & Hc2 & Hr2 & Hlast & _).
        specialize (Hlast eq_refl). subst r2.
        exists l2, (mk (t2 :: b2) [] ab2 0). spl.
        -- eapply returns_bind; [apply loops_returns; exact L|].
           rewrite lastSibling_eq. cbn [bind isLast1].
           eapply returns_bind; [apply loops_returns; exact L2|].
           apply returns_const. reflexivity.
        -- eapply over_next; exact Ho2.
        -- right. spl; auto; try lia.
           ++ rewrite (TP_next b2 t2 [] ab2 c2 0), Hr2, Hr, TP_cons, Ec. reflexivity.
           ++ cbn. congruence.
           ++ intros _. split; [|exists t2, b2; now split].
              rewrite (TP_next b2 t2 [] ab2 c2 0), Hr2, Hr. exact Hrest.
    + exists l', (mk (t' :: b') (x :: r') ab' 0). spl.
      * eapply returns_bind; [apply loops_returns; exact L|].
        rewrite lastSibling_eq. cbn [bind isLast1]. apply returns_const. reflexivity.
      * eapply over_next; exact Ho.
      * right. spl; auto; try lia; [|discriminate].
        rewrite (TP_next b' t' (x :: r') ab' c' 0), Hr, TP_cons, Ec. reflexivity.
  - exists (l + depth t), (mk [] (children t) (frameOf b t r :: ab) 0). spl.
    + apply returns_const. rewrite child_down; [|lia|rewrite Ec; cbn; lia].
      now rewrite skipn_O, firstn_O.
    + pose proof (over_child _ _ _ _ _ _ _ 0 0 H) as Hk. rewrite Ec in *. cbn in Hk.
      apply Hk. lia.
    + right. spl; auto; try lia.
      * rewrite (TP_child b t r ab c 0), TP_cons. reflexivity.
      * cbn [after]. rewrite Ec. discriminate.
Qed.

(** * Levels *)
Definition lives (L : nat) (i : I) : bool := match after i with [] => false | t :: _ => livesOn L t end.
Definition TL (L : nat) (i : I) : list I := filter (lives L) (TP i).
Definition restL (L : nat) (i : I) : list I := filter (lives L) (rest i).

Lemma livesOn_false_low (t : T) L : L < level t -> livesOn L t = false.
Proof. intros H. unfold livesOn. destruct (Nat.leb_spec (level t) L); [lia|reflexivity]. Qed.
Lemma livesOn_false_high (t : T) L : level t + depth t <= L -> livesOn L t = false.
Proof.
  intros H. unfold livesOn. destruct (Nat.ltb_spec L (level t + depth t)); [lia|].
  apply andb_false_r.
Qed.
Lemma livesOn_true (t : T) L : level t <= L -> L < level t + depth t -> livesOn L t = true.
Proof.
  intros H1 H2. unfold livesOn.
  now rewrite (proj2 (Nat.leb_le _ _) H1), (proj2 (Nat.ltb_lt _ _) H2).
Qed.
Lemma livesOn_iff (t : T) L : livesOn L t = true <-> level t <= L /\ L < level t + depth t.
Proof. unfold livesOn. rewrite andb_true_iff, Nat.leb_le, Nat.ltb_lt. reflexivity. Qed.

Lemma preF_entries_gen : forall f, Forall (fun t => forall ab b r, map entry (preT ab b t r) = map Some (subtree t)) f ->
  forall ab b r, map entry (preF ab b f r) = map Some (allEntries f).
Proof.
  induction 1 as [|x f Hx Hf IH]; intros ab b r; [reflexivity|].
  cbn [preF]. unfold allEntries; cbn [flat_map]. rewrite !map_app, Hx, IH. reflexivity.
Qed.
Lemma preT_entries : forall t ab b r, map entry (preT ab b t r) = map Some (subtree t).
Proof.
  induction t as [v l d c IH] using Tree_ind'. intros ab b r. rewrite preT_eq. cbn [children map subtree].
  f_equal. now apply preF_entries_gen.
Qed.
Lemma preF_entries f ab b r : map entry (preF ab b f r) = map Some (allEntries f).
Proof. apply preF_entries_gen. apply Forall_forall. intros t _. apply preT_entries. Qed.
Lemma postF_entries_gen : forall f, Forall (fun t => forall ab b r, map entry (postT ab b t r) = map Some (subtreePost t)) f ->
  forall ab b r, map entry (postF ab b f r) = map Some (allEntriesPost f).
Proof.
  induction 1 as [|x f Hx Hf IH]; intros ab b r; [reflexivity|].
  cbn [postF]. unfold allEntriesPost; cbn [flat_map]. rewrite !map_app, Hx, IH. reflexivity.
Qed.
Lemma postT_entries : forall t ab b r, map entry (postT ab b t r) = map Some (subtreePost t).
Proof.
  induction t as [v l d c IH] using Tree_ind'. intros ab b r. rewrite postT_eq. cbn [children subtreePost].
  rewrite !map_app. cbn [map]. f_equal. now apply postF_entries_gen.
Qed.
Lemma postF_entries f ab b r : map entry (postF ab b f r) = map Some (allEntriesPost f).
Proof. apply postF_entries_gen. apply Forall_forall. intros t _. apply postT_entries. Qed.

Lemma filter_lives L : forall (l : list I) m, map entry l = map Some m ->
  map entry (filter (lives L) l) = map Some (filter (livesOn L) m).
Proof.
  induction l as [|i l IH]; intros [|t m] E; try discriminate; [reflexivity|].
  cbn [map] in E. inversion E as [[E1 E2]]. cbn [filter].
  assert (lives L i = livesOn L t).
  { unfold lives. unfold entry in E1. destruct (after i); inversion E1; reflexivity. }
  rewrite H. destruct (livesOn L t); cbn [map]; [f_equal; [exact E1|]|]; auto.
Qed.
Lemma consistent_subtree : forall (t : T) l x, consistent l t -> In x (subtree t) ->
  x = t \/ l + depth t <= level x.
Proof.
  induction t as [v l0 d c IH] using Tree_ind'. intros l x H. cbn [subtree].
  intros [->|Hx]; [now left|]. right.
  apply in_flat_map in Hx. destruct Hx as (y & Hy & Hx).
  pose proof (consistent_children _ _ H) as Hc. cbn [children depth] in *.
  rewrite Forall_forall in IH, Hc. specialize (Hc y Hy).
  destruct (IH y Hy _ _ Hc Hx) as [->|Hl].
  - now rewrite (consistent_level _ _ Hc).
  - pose proof (consistent_depth _ _ Hc). lia.
Qed.
Lemma consistent_subtree_level (t : T) l x : consistent l t -> In x (subtree t) -> l <= level x.
Proof.
  intros H Hx. destruct (consistent_subtree _ _ _ H Hx) as [->|Hl]; [|lia].
  now rewrite (consistent_level _ _ H).
Qed.
Lemma entries_filter_low L f l : Forall (consistent l) f -> L < l ->
  filter (livesOn L) (@allEntries V f) = [].
Proof.
  intros H HL. assert (E : forall m, (forall x, In x m -> l <= level x) -> filter (livesOn L) (m : list T) = []).
  { induction m as [|x m IH]; intros Hm; [reflexivity|]. cbn [filter].
    rewrite livesOn_false_low; [apply IH; intros; apply Hm; now right|].
    specialize (Hm x (or_introl eq_refl)). lia. }
  apply E. intros x Hx. apply in_flat_map in Hx. destruct Hx as (t & Ht & Hx).
  rewrite Forall_forall in H. eapply consistent_subtree_level; eauto.
Qed.
Lemma preF_filter_low L f l ab b r : Forall (consistent l) f -> L < l ->
  filter (lives L) (preF ab b f r) = [].
Proof.
  intros H HL. pose proof (filter_lives L _ _ (preF_entries f ab b r)) as E.
  rewrite (entries_filter_low L f l H HL) in E.
  destruct (filter (lives L) (preF ab b f r)); [reflexivity|discriminate].
Qed.

(** At an entry of level L, all that remains on the level comes after it. *)
Lemma TL_at f l b t r ab c L : over f l (mk b (t :: r) ab c) -> l <= L -> L < l + depth t ->
  TL L (mk b (t :: r) ab c) = mk b (t :: r) ab 0 :: restL L (mk b (t :: r) ab c).
Proof.
  intros H H1 H2. pose proof (over_focus _ _ _ _ _ _ _ H) as Ht. pose proof (consistent_level _ _ Ht) as El.
  unfold TL. rewrite TP_cons. cbn [filter]. unfold lives at 1; cbn [after].
  rewrite livesOn_true by lia. rewrite filter_app.
  rewrite (preF_filter_low L (children t) (l + depth t)); [reflexivity| |exact H2].
  now apply consistent_children.
Qed.

Definition downCond (L : nat) (i : I) : option bool :=
  if atEnd i then Some false else do l <- currentLevel i ;; Some (l <? L).
Lemma downCond_eq f l b t r ab c L : over f l (mk b (t :: r) ab c) ->
  downCond L (mk b (t :: r) ab c) = Some (l + c <? L).
Proof.
  intros H. unfold downCond, currentLevel; cbn. 
  now rewrite (consistent_level _ _ (over_focus _ _ _ _ _ _ _ H)).
Qed.

Lemma downBegin_gen f L : forall m k l b t r ab c,
  length (TP (mk b (t :: r) ab c)) = m -> depth t - c = k ->
  over f l (mk b (t :: r) ab c) -> c < depth t -> l + c <= L ->
  exists l' j, loops (fun _ => downCond L) (fun n => moveToNextPreOrder n) (mk b (t :: r) ab c) j /\
    over f l' j /\ TL L j = TL L (mk b (t :: r) ab c) /\
    match after j with
    | [] => TP j = [] /\ exists t' b', before j = t' :: b' /\ children t' = []
    | t' :: _ => l' + counter j = L /\ counter j < depth t'
    end.
Proof.
  induction m as [m IHm] using lt_wf_ind. induction k as [k IHk] using lt_wf_ind.
  intros l b t r ab c Hm Hk H Hc HL.
  pose proof (over_focus _ _ _ _ _ _ _ H) as Ht. pose proof (consistent_level _ _ Ht) as El.
  destruct (Nat.eq_dec (l + c) L) as [E|NE].
  { exists l, (mk b (t :: r) ab c). cbn [after counter]. spl; auto.
    apply loops_stop, returns_const. rewrite (downCond_eq _ _ _ _ _ _ _ _ H).
    f_equal. apply Nat.ltb_ge. lia. }
  assert (Hcond : downCond L (mk b (t :: r) ab c) = Some true).
  { rewrite (downCond_eq _ _ _ _ _ _ _ _ H). f_equal. apply Nat.ltb_lt. lia. }
  destruct (nextPre f l b t r ab c H Hc) as (l' & j & Hj & Hoj & Cases).
  destruct Cases as [(Hd & -> & ->)|(Hd & HT & Hcj & Hlj & Hend)].
  - destruct (IHk (depth t - S c) ltac:(lia) l b t r ab (S c)) as (l2 & j2 & L2 & Ho2 & HT2 & Hf2); auto; try lia.
    exists l2, j2. spl; auto. eapply loops_step; [apply returns_const; exact Hcond|exact Hj|exact L2].
  - assert (HTL : TL L j = TL L (mk b (t :: r) ab c)).
    { unfold TL. rewrite HT, TP_cons. cbn [tl filter]. unfold lives at 2; cbn [after].
      now rewrite livesOn_false_high by lia. }
    destruct (after j) as [|t' r'] eqn:Ea.
    + exists l', j. rewrite Ea. spl; auto; try (now apply Hend).
      eapply loops_step; [apply returns_const; exact Hcond|exact Hj|].
      apply loops_stop, returns_const. unfold downCond, atEnd. now rewrite Ea.
    + destruct j as [bj aj abj cj]. cbn [after counter] in *. subst aj cj.
      assert (Hne : t' :: r' <> []) by discriminate. specialize (Hlj Hne).
      pose proof (consistent_depth _ _ (over_focus _ _ _ _ _ _ _ Hoj)) as Hd'.
      assert (Hlen : length (TP (mk bj (t' :: r') abj 0)) < m).
      { rewrite HT, <- Hm, TP_cons. cbn [tl length]. lia. }
      destruct (IHm _ Hlen (depth t' - 0) l' bj t' r' abj 0) as (l2 & j2 & L2 & Ho2 & HT2 & Hf2); auto; try lia.
      exists l2, j2. spl; auto; [|congruence].
      eapply loops_step; [apply returns_const; exact Hcond|exact Hj|exact L2].
Qed.
Lemma downBegin f L l b t r ab c : over f l (mk b (t :: r) ab c) -> c < depth t -> l + c <= L ->
  exists l' j, returns (fun n => moveDownToLevelBegin n L (mk b (t :: r) ab c)) j /\
    over f l' j /\ TL L j = TL L (mk b (t :: r) ab c) /\
    match after j with
    | [] => TP j = [] /\ exists t' b', before j = t' :: b' /\ children t' = []
    | t' :: _ => l' + counter j = L /\ counter j < depth t'
    end.
Proof.
  intros H1 H2 H3.
  destruct (downBegin_gen f L _ _ l b t r ab c eq_refl eq_refl H1 H2 H3) as (l' & j & HL & R).
  exists l', j. split; [|exact R]. exact (loops_returns _ _ _ _ HL).
Qed.

(** moveToNextOnLevel: to the next entry of the level, or one step beyond the last one. *)
Lemma nextOnLevel f L l b t r ab c : over f l (mk b (t :: r) ab c) -> c < depth t -> l + c = L ->
  (restL L (mk b (t :: r) ab c) = [] /\
   returns (fun n => moveToNextOnLevel n (mk b (t :: r) ab c)) (mk (t :: b) r ab c)) \/
  exists l' b' t' r' ab' c',
    returns (fun n => moveToNextOnLevel n (mk b (t :: r) ab c)) (mk b' (t' :: r') ab' c') /\
    over f l' (mk b' (t' :: r') ab' c') /\ c' < depth t' /\ l' + c' = L /\
    restL L (mk b (t :: r) ab c) = TL L (mk b' (t' :: r') ab' c').
Proof.
  intros H Hc HL.
  pose proof (over_focus _ _ _ _ _ _ _ H) as Ht. pose proof (consistent_level _ _ Ht) as El.
  destruct (climbLast f _ _ _ _ _ _ H) as (l' & b' & t' & r' & ab' & c' & _ & Lp & Ho & Hr & Hl & Hn & Hv).
  apply loops_returns in Lp.
  unfold moveToNextOnLevel. unfold currentLevel at 1 2; cbn [entry after bind counter].
  rewrite El. destruct r' as [|x r'].
  - left. split.
    + unfold restL. rewrite <- Hr. rewrite (Hn eq_refl). reflexivity.
    + eapply returns_bind; [exact Lp|]. rewrite lastSibling_eq. cbn [bind isLast1].
      apply returns_const. reflexivity.
  - pose proof (over_next _ _ _ _ _ _ _ 0 Ho) as Ho2.
    pose proof (consistent_depth _ _ (over_focus _ _ _ _ _ _ _ Ho2)) as Hd2.
    destruct (downBegin f L l' (t' :: b') x r' ab' 0 Ho2 Hd2 ltac:(lia)) as (l2 & j & Hj & Hoj & HTj & Hfj).
    assert (HT : TL L j = restL L (mk b (t :: r) ab c)).
    { rewrite HTj. unfold TL, restL. now rewrite (TP_next b' t' (x :: r') ab' c' 0), Hr. }
    destruct (after j) as [|tj rj] eqn:Ea.
    + left. split; [rewrite <- HT; unfold TL; now rewrite (proj1 Hfj)|].
      eapply returns_bind; [exact Lp|]. rewrite lastSibling_eq. cbn [bind isLast1].
      unfold ptrNext at 1; cbn [after before above counter bind]. rewrite HL.
      eapply returns_bind; [exact Hj|]. unfold atEnd; rewrite Ea. apply returns_const. reflexivity.
    + right. destruct j as [bj aj abj cj]. cbn [after counter] in *. subst aj.
      exists l2, bj, tj, rj, abj, cj. spl; auto; try tauto.
      eapply returns_bind; [exact Lp|]. rewrite lastSibling_eq. cbn [bind isLast1].
      unfold ptrNext at 1; cbn [after before above counter bind]. rewrite HL.
      eapply returns_bind; [exact Hj|]. cbn. apply returns_const. reflexivity.
Qed.

(** * Stepping backwards through the post-order *)
Fixpoint pastc (ab : list (Frame V)) (s : list T) : list I :=
  match ab with
  | [] => []
  | fr :: up => pastc up (rev (f_before fr) ++ plug fr s :: f_after fr) ++
                postF up [] (rev (f_before fr)) (plug fr s :: f_after fr)
  end.
Definition past (i : I) : list I :=
  pastc (above i) (sibs i) ++ postF (above i) [] (rev (before i)) (after i).
(** Everything up to the entry in post-order, without the entry itself *)
Definition BPx (i : I) : list I :=
  past i ++ match after i with
            | [] => []
            | t :: r => postF (frameOf (before i) t r :: above i) [] (children t) []
            end.
Definition positionsPost (f : list T) : list I := postF [] [] f [].
Definition BL (L : nat) (i : I) : list I := filter (lives L) (BPx i ++ [norm i]).

Lemma past_counter i c : past (setCounter c i) = past i.
Proof. reflexivity. Qed.
Lemma past_parent t r fr up c c' :
  past (mk (f_before fr) (plug fr (t :: r) :: f_after fr) up c') = past (mk [] (t :: r) (fr :: up) c).
Proof. unfold past, sibs; cbn [above before after pastc rev app postF]. now rewrite app_nil_r. Qed.
Lemma past_prev b t r ab c c' : past (mk (t :: b) r ab c) =
  BPx (mk b (t :: r) ab c') ++ [mk b (t :: r) ab 0].
Proof.
  unfold BPx, past, sibs; cbn [above before after]. rewrite <- app_cons_assoc. cbn [rev].
  rewrite postF_app. cbn [postF app]. rewrite !app_nil_r, rev_involutive, postT_eq.
  rewrite <- !app_assoc. reflexivity.
Qed.
Lemma past_lastChild b t r ab c ch x c' : children t = ch ++ [x] ->
  BPx (mk b (t :: r) ab c) =
  BPx (mk (rev ch) [x] (frameOf b t r :: ab) c') ++ [mk (rev ch) [x] (frameOf b t r :: ab) 0].
Proof.
  intros E. unfold BPx, past, sibs; cbn [above before after pastc].
  rewrite !rev_involutive, <- E, plug_frameOf. cbn [frameOf f_before f_after].
  rewrite E, postF_app. cbn [postF app]. rewrite !app_nil_r, postT_eq.
  rewrite <- !app_assoc. reflexivity.
Qed.

Lemma firstSibling_eq b t r ab c : isFirstSibling (mk b (t :: r) ab c) = Some (isLast1 b).
Proof. unfold isFirstSibling; cbn. f_equal. now destruct b. Qed.

Lemma climbFirst f : forall ab l b t r c, over f l (mk b (t :: r) ab c) ->
  exists l' b' t' r' ab' c',
    climbs (fun i => andb' (not' (isRoot i)) (isFirstSibling i)) (mk b (t :: r) ab c)
           (mk b' (t' :: r') ab' c') /\
    (b' <> [] -> climbs isFirstSibling (mk b (t :: r) ab c) (mk b' (t' :: r') ab' c')) /\
    over f l' (mk b' (t' :: r') ab' c') /\
    past (mk b' (t' :: r') ab' c') = past (mk b (t :: r) ab c) /\
    l' + c' <= l + c /\ (b' = [] -> ab' = []) /\ (b <> [] -> b' = b /\ ab' = ab /\ c' = c) /\
    (Forall (fun fr => f_depth fr = 1) ab -> c = 0 -> c' = 0).
Proof.
  assert (Stop : forall ab l b t r c, over f l (mk b (t :: r) ab c) -> (b = [] -> ab = []) ->
    climbs (fun i => andb' (not' (isRoot i)) (isFirstSibling i)) (mk b (t :: r) ab c) (mk b (t :: r) ab c)).
  { intros ab l b t r c H E. apply loops_stop, returns_const;
      rewrite (root_eq _ _ _ _ _ _ _ H), firstSibling_eq;
      destruct ab, b; try reflexivity; specialize (E eq_refl); discriminate. }
  assert (Stop2 : forall ab l b t r c, over f l (mk b (t :: r) ab c) -> b <> [] ->
    climbs isFirstSibling (mk b (t :: r) ab c) (mk b (t :: r) ab c)).
  { intros ab l b t r c H E. apply loops_stop, returns_const. rewrite firstSibling_eq.
    destruct b; [congruence|reflexivity]. }
  intros ab. induction ab as [|fr up IH]; intros l b t r c H.
  - exists l, b, t, r, [], c. spl; auto; [now apply (Stop _ l)|]. intros E. now apply (Stop2 _ l).
  - destruct b as [|b0 b].
    2:{ exists l, (b0 :: b), t, r, (fr :: up), c.
        assert (E : b0 :: b = [] -> fr :: up = []) by discriminate. spl; auto; [now apply (Stop _ l)|].
        intros Hb. now apply (Stop2 _ l). }
    induction c as [|c IHc].
    + destruct (over_parent _ _ _ _ _ _ _ _ (f_depth fr - 1) H) as (El & Hd & Hp).
      destruct (IH _ _ _ _ _ Hp) as (l' & b' & t' & r' & ab' & c' & L1 & L2 & Ho & Hr & Hl & He & _ & Hz).
      exists l', b', t', r', ab', c'. spl; auto; try lia; try congruence.
      * eapply loops_step; [| |exact L1]; apply returns_const.
        -- rewrite (root_eq _ _ _ _ _ _ _ H), firstSibling_eq. reflexivity.
        -- exact (parent_up _ _ _ _ _ _ _ H).
      * intros Hb. specialize (L2 Hb). eapply loops_step; [| |exact L2]; apply returns_const.
        -- rewrite firstSibling_eq. reflexivity.
        -- exact (parent_up _ _ _ _ _ _ _ H).
      * rewrite Hr. apply past_parent.
      * intros HF _. inversion HF; subst. apply Hz; [assumption|lia].
    + destruct IHc as (l' & b' & t' & r' & ab' & c' & L1 & L2 & Ho & Hr & Hl & He & _ & Hz); [exact H|].
      exists l', b', t', r', ab', c'. spl; auto; try lia; try congruence.
      * eapply loops_step; [| |exact L1]; apply returns_const.
        -- rewrite (root_eq _ _ _ _ _ _ _ H), firstSibling_eq. reflexivity.
        -- apply parent_counter.
      * intros Hb. specialize (L2 Hb). eapply loops_step; [| |exact L2]; apply returns_const.
        -- rewrite firstSibling_eq. reflexivity.
        -- apply parent_counter.
Qed.

Lemma snoc_or_nil {A} (l : list A) : l = [] \/ exists l' x, l = l' ++ [x].
Proof. destruct l using rev_ind; eauto. Qed.

(** One step back: either there is none, or it leads to the previous position. The counter may
    be left over from another entry. *)
Lemma prevPost f l b t r ab c : over f l (mk b (t :: r) ab c) ->
  (returns (fun n => hasPreviousPostOrder n (mk b (t :: r) ab c)) false /\
   BPx (mk b (t :: r) ab c) = [] /\ depth t <= S c) \/
  (returns (fun n => hasPreviousPostOrder n (mk b (t :: r) ab c)) true /\
   exists l' b' t' r' ab' c',
     returns (fun n => moveToPreviousPostOrder n (mk b (t :: r) ab c)) (mk b' (t' :: r') ab' c') /\
     over f l' (mk b' (t' :: r') ab' c') /\
     ((S c < depth t /\ mk b' (t' :: r') ab' c' = mk b (t :: r) ab (S c) /\ l' = l) \/
      (depth t <= S c /\
       BPx (mk b (t :: r) ab c) = BPx (mk b' (t' :: r') ab' c') ++ [mk b' (t' :: r') ab' 0] /\
       ((l' = l + depth t /\ c' = 0) \/ (children t = [] /\ l' + c' <= l + c)) /\
       (Forall (fun fr => f_depth fr = 1) ab -> c = 0 -> c' = 0)))).
Proof.
  intros H. unfold moveToPreviousPostOrder, hasPreviousPostOrder, atEnd; cbn [after].
  rewrite hasChild_eq, firstSibling_eq, canIncrease_eq. cbn [bind].
  destruct (Nat.ltb_spec c (depth t - 1)) as [Hlt|Hge].
  { right. rewrite !orb_true_r. split; [apply returns_ret|].
    exists l, b, t, r, ab, (S c). spl; auto.
    - apply returns_const. cbn [bind negb]. rewrite lastChild_counter by lia. reflexivity.
    - left. spl; auto. lia. }
  rewrite !orb_false_r. destruct (snoc_or_nil (children t)) as [Ec|(ch & x & Ec)].
  - rewrite Ec. cbn [orb].
    assert (HBP : BPx (mk b (t :: r) ab c) = past (mk b (t :: r) ab c)).
    { unfold BPx at 1. cbn [after before above]. rewrite Ec. apply app_nil_r. }
    destruct (climbFirst f _ _ _ _ _ _ H) as (l' & b' & t' & r' & ab' & c' & L1 & L2 & Ho & Hp & Hl & He & Hs & Hz).
    destruct b' as [|t'' b''].
    + specialize (He eq_refl). subst ab'.
      left. destruct b as [|b0 b]; [|destruct (Hs ltac:(discriminate)); discriminate].
      cbn [isLast1 negb]. spl; [..|lia].
      * eapply returns_bind; [apply loops_returns; exact L1|].
        rewrite firstSibling_eq. apply returns_const. reflexivity.
      * rewrite HBP, <- Hp. reflexivity.
    + right. specialize (L2 ltac:(discriminate)).
      assert (Hhas : returns (fun n => if negb (isLast1 b) then Some true
                 else (do j <- while n (fun i => andb' (not' (isRoot i)) (isFirstSibling i)) moveToParent
                        (mk b (t :: r) ab c) ;; not' (isFirstSibling j))) true).
      { destruct b as [|b0 b]; cbn [isLast1 negb]; [|apply returns_ret].
        eapply returns_bind; [apply loops_returns; exact L1|].
        rewrite firstSibling_eq. apply returns_const. reflexivity. }
      split; [exact Hhas|].
      exists l', b'', t'', (t' :: r'), ab', c'. spl.
      * eapply returns_bind; [exact Hhas|]. cbn [negb].
        eapply returns_bind; [apply loops_returns; exact L2|].
        apply returns_const. reflexivity.
      * eapply over_prev; exact Ho.
      * right. spl; [lia| |right; split; [reflexivity|exact Hl]|exact Hz].
        rewrite HBP, <- Hp. apply past_prev.
  - assert (Hne : match children t with [] => false | _ => true end = true).
    { rewrite Ec. now destruct ch. }
    rewrite Hne. cbn [orb]. right. split; [apply returns_ret|].
    exists (l + depth t), (rev ch), x, [], (frameOf b t r :: ab), 0. spl.
    + apply returns_const. cbn [bind negb]. apply lastChild_down; [lia|exact Ec].
    + eapply over_lastChild; eassumption.
    + right. spl; [lia| |left; auto|auto]. apply past_lastChild. exact Ec.
Qed.

Definition endCond (n L : nat) (i : I) : option bool :=
  if atEnd i then Some true
  else do l <- currentLevel i ;; andb' (Some (l <? L)) (hasPreviousPostOrder n i).

Lemma downEnd_gen f L : forall m k l b t r ab c,
  length (BPx (mk b (t :: r) ab c)) = m -> depth t - c = k ->
  over f l (mk b (t :: r) ab c) -> (l + c < L \/ l + c = L /\ c < depth t) ->
  exists l' b' t' r' ab' c',
    loops (fun n => endCond n L) (fun n => moveToPreviousPostOrder n) (mk b (t :: r) ab c)
          (mk b' (t' :: r') ab' c') /\
    over f l' (mk b' (t' :: r') ab' c') /\
    ((l' + c' = L /\ c' < depth t' /\ exists D, BL L (mk b (t :: r) ab c) = D ++ [mk b' (t' :: r') ab' 0]) \/
     (l' + c' < L /\ BL L (mk b (t :: r) ab c) = [])).
Proof.
  induction m as [m IHm] using lt_wf_ind. induction k as [k IHk] using lt_wf_ind.
  intros l b t r ab c Hm Hk H HL.
  pose proof (over_focus _ _ _ _ _ _ _ H) as Ht. pose proof (consistent_level _ _ Ht) as El.
  assert (Hcond : forall n, endCond n L (mk b (t :: r) ab c) =
     if l + c <? L then hasPreviousPostOrder n (mk b (t :: r) ab c) else Some false).
  { intros n. unfold endCond, currentLevel, atEnd; cbn [after entry bind counter]. rewrite El.
    reflexivity. }
  destruct HL as [HL|[HL Hcd]].
  2:{ exists l, b, t, r, ab, c. spl; auto.
      - apply loops_stop. eapply returns_ext; [exact Hcond|]. destruct (Nat.ltb_spec (l + c) L); [lia|apply returns_ret].
      - left. spl; auto. unfold BL. rewrite filter_app. cbn [filter]. unfold lives at 2.
        cbn [after norm setCounter]. rewrite livesOn_true by lia. eauto. }
  rewrite (proj2 (Nat.ltb_lt _ _) HL) in Hcond.
  destruct (prevPost f l b t r ab c H) as [(Hf & HB & Hd)|(Hp & l' & b' & t' & r' & ab' & c' & Hj & Ho & Cases)].
  - exists l, b, t, r, ab, c. spl; auto.
    + apply loops_stop. eapply returns_ext; [exact Hcond|exact Hf].
    + right. split; [exact HL|]. unfold BL. rewrite HB. cbn [app filter]. unfold lives.
      cbn [after norm setCounter]. now rewrite livesOn_false_high by lia.
  - destruct Cases as [(Hd & E & ->)|(Hd & HB & Hlv & _)].
    + inversion E; subst b' t' r' ab' c'. clear E.
      destruct (IHk (depth t - S c) ltac:(lia) l b t r ab (S c) Hm eq_refl) as (l2 & b2 & t2 & r2 & ab2 & c2 & L2 & H2 & R).
      { exact H. } { lia. }
      exists l2, b2, t2, r2, ab2, c2. spl; auto.
      eapply loops_step; [eapply returns_ext; [exact Hcond|exact Hp]|exact Hj|exact L2].
    + assert (HBL : BL L (mk b (t :: r) ab c) = BL L (mk b' (t' :: r') ab' c')).
      { unfold BL. rewrite HB, filter_app. cbn [filter]. unfold lives at 2.
        cbn [after norm setCounter]. rewrite livesOn_false_high by lia. now rewrite app_nil_r. }
      assert (Hlen : length (BPx (mk b' (t' :: r') ab' c')) < m).
      { rewrite <- Hm, HB, app_length. cbn. lia. }
      destruct (IHm _ Hlen (depth t' - c') l' b' t' r' ab' c' eq_refl eq_refl Ho) as (l2 & b2 & t2 & r2 & ab2 & c2 & L2 & H2 & R).
      { pose proof (consistent_depth _ _ (over_focus _ _ _ _ _ _ _ Ho)). destruct Hlv as [[-> ->]|[_ Hlv]]; lia. }
      exists l2, b2, t2, r2, ab2, c2. rewrite HBL. spl; auto.
      eapply loops_step; [eapply returns_ext; [exact Hcond|exact Hp]|exact Hj|exact L2].
Qed.
Lemma downEnd f L l b t r ab c :
  over f l (mk b (t :: r) ab c) -> (l + c < L \/ l + c = L /\ c < depth t) ->
  exists l' b' t' r' ab' c',
    returns (fun n => moveDownToLevelEnd n L (mk b (t :: r) ab c)) (mk b' (t' :: r') ab' c') /\
    over f l' (mk b' (t' :: r') ab' c') /\
    ((l' + c' = L /\ c' < depth t' /\ exists D, BL L (mk b (t :: r) ab c) = D ++ [mk b' (t' :: r') ab' 0]) \/
     (l' + c' < L /\ BL L (mk b (t :: r) ab c) = [])).
Proof.
  intros H HL. destruct (downEnd_gen f L _ _ l b t r ab c eq_refl eq_refl H HL)
    as (l' & b' & t' & r' & ab' & c' & Lp & R).
  exists l', b', t', r', ab', c'. split; [|exact R]. exact (loops_returns _ _ _ _ Lp).
Qed.

(** On one level, pre- and post-order agree. *)
Lemma level_pre_post L : forall f l ab b r, Forall (consistent l) f ->
  filter (lives L) (postF ab b f r) = filter (lives L) (preF ab b f r).
Proof.
  assert (Hgen : forall f, Forall (fun t => forall l ab b r, consistent l t ->
             filter (lives L) (postT ab b t r) = filter (lives L) (preT ab b t r)) f ->
           forall l ab b r, Forall (consistent l) f ->
             filter (lives L) (postF ab b f r) = filter (lives L) (preF ab b f r)).
  { induction 1 as [|x f Hx Hf IH]; intros l ab b r H; [reflexivity|].
    inversion H; subst. cbn [preF postF]. rewrite !filter_app. f_equal; eauto. }
  intros f l ab b r. apply Hgen. apply Forall_forall. intros t _. clear - Hgen.
  induction t as [v l0 d c IH] using Tree_ind'. intros l ab b r H.
  rewrite postT_eq, preT_eq. cbn [children].
  pose proof (consistent_children _ _ H) as Hc. pose proof (consistent_level _ _ H) as El.
  cbn [children depth level] in *. subst l0.
  rewrite filter_app. cbn [filter]. rewrite (Hgen c IH (l + d)) by exact Hc.
  change (lives L (mk b (Node v l d c :: r) ab 0)) with (livesOn L (Node v l d c)).
  destruct (livesOn L (Node v l d c)) eqn:Ev.
  - apply livesOn_iff in Ev. cbn [level depth] in Ev.
    rewrite (preF_filter_low L c (l + d)) by (auto; lia). reflexivity.
  - apply app_nil_r.
Qed.
Definition allL (L : nat) (f : list T) : list I := filter (lives L) (positions f).

(** * Moving to the roots *)
Lemma upToRoot f : forall ab l b t r c, over f l (mk b (t :: r) ab c) ->
  exists b' t' r', returns (fun n => moveUpToLevel n 0 (mk b (t :: r) ab c)) (mk b' (t' :: r') [] 0) /\
    over f 0 (mk b' (t' :: r') [] 0).
Proof.
  intros ab l b t r c H.
  cut (exists b' t' r', loops (fun _ i => do l <- currentLevel i ;; Some (0 <? l)) (fun _ => moveToParent)
         (mk b (t :: r) ab c) (mk b' (t' :: r') [] 0) /\ over f 0 (mk b' (t' :: r') [] 0)).
  { intros (b' & t' & r' & L & Ho). exists b', t', r'. split; [|exact Ho].
    unfold moveUpToLevel, atEnd; cbn [after]. exact (loops_returns _ _ _ _ L). }
  revert l b t r c H. induction ab as [|fr up IH]; intros l b t r c H.
  - assert (l = 0) by (destruct H as (H & _); now inversion H). subst l.
    pose proof (consistent_level _ _ (over_focus _ _ _ _ _ _ _ H)) as El.
    exists b, t, r. split; [|exact H]. induction c as [|c IHc].
    + apply loops_stop, returns_const. unfold currentLevel; cbn. now rewrite El.
    + eapply loops_step; [| |apply IHc; exact H]; apply returns_const.
      * unfold currentLevel; cbn. now rewrite El.
      * apply parent_counter.
  - pose proof (consistent_level _ _ (over_focus _ _ _ _ _ _ _ H)) as El.
    induction c as [|c IHc].
    + destruct (over_parent _ _ _ _ _ _ _ _ (f_depth fr - 1) H) as (E & Hd & Hp).
      destruct (IH _ _ _ _ _ Hp) as (b' & t' & r' & L & Ho).
      exists b', t', r'. split; [|exact Ho].
      eapply loops_step; [| |exact L]; apply returns_const.
      * unfold currentLevel; cbn [entry after bind counter]. rewrite El. f_equal. apply Nat.ltb_lt. lia.
      * exact (parent_up _ _ _ _ _ _ _ H).
    + destruct IHc as (b' & t' & r' & L & Ho); [exact H|].
      exists b', t', r'. split; [|exact Ho].
      eapply loops_step; [| |exact L]; apply returns_const.
      * unfold currentLevel; cbn [entry after bind counter]. rewrite El. f_equal. apply Nat.ltb_lt. lia.
      * apply parent_counter.
Qed.
Lemma stepBack f l i : over f l i -> exists b t r ab c,
  stepBackFromEnd i = Some (mk b (t :: r) ab c) /\ over f l (mk b (t :: r) ab c).
Proof.
  destruct i as [b a ab c]. intros H. unfold stepBackFromEnd, atEnd, ptrPrev; cbn [after before above counter].
  destruct a as [|t r]; [|exists b, t, r, ab, c; auto].
  destruct b as [|t b]; [destruct H as (_ & _ & _ & H & _); now elim H|].
  exists b, t, [], ab, c. split; [reflexivity|]. eapply over_prev; exact H.
Qed.

Lemma over_first f t r : consistentForest (t :: r) -> f = t :: r -> over f 0 (mk [] (t :: r) [] 0).
Proof. intros H ->. unfold over, sibs; cbn. spl; auto; [constructor|discriminate]. Qed.
Lemma over_last f g x : consistentForest (g ++ [x]) -> f = g ++ [x] -> over f 0 (mk (rev g) [x] [] 0).
Proof.
  intros H ->. apply Forall_app in H. destruct H. unfold over, sibs; cbn. rewrite rev_involutive.
  spl; auto; [constructor|now apply Forall_rev|now destruct g].
Qed.
Lemma over_consistent f b t r c : over f 0 (mk b (t :: r) [] c) -> consistentForest f /\ f = rev b ++ t :: r.
Proof.
  unfold over, sibs; cbn. intros (_ & H1 & H2 & _ & <-). split; [|reflexivity].
  apply Forall_app. split; auto. now apply Forall_rev.
Qed.
Lemma iteratorAt_first ab t (r : list T) : iteratorAt ab (t :: r) 0 = Some (mk [] (t :: r) ab 0).
Proof. reflexivity. Qed.
Lemma iteratorAt_last ab (g : list T) x :
  iteratorAt ab (g ++ [x]) (length (g ++ [x]) - 1) = Some (mk (rev g) [x] ab 0).
Proof.
  rewrite app_length; cbn [length]. replace (length g + 1 - 1) with (length g) by lia.
  unfold iteratorAt. destruct (Nat.ltb_spec (length g) (length (g ++ [x]))) as [_|H];
    [|rewrite app_length in H; cbn in H; lia].
  rewrite firstn_app, firstn_all, skipn_app, skipn_all, Nat.sub_diag. cbn. now rewrite app_nil_r.
Qed.

Lemma BL_last L g x : consistentForest (g ++ [x]) -> BL L (mk (rev g) [x] [] 0) = allL L (g ++ [x]).
Proof.
  intros H. unfold BL, allL, positions. rewrite <- (level_pre_post L _ 0) by exact H.
  f_equal. unfold norm, setCounter; cbn [before after above].
  rewrite <- (past_prev (rev g) x [] [] 0 0). unfold past; cbn [above pastc before after app rev].
  now rewrite rev_involutive.
Qed.
Lemma firstOnLevel f l i L : over f l i ->
  exists l' j, returns (fun n => moveToFirstOnLevel n L i) j /\ over f l' j /\ TL L j = allL L f /\
    match after j with
    | [] => TP j = [] /\ exists t' b', before j = t' :: b' /\ children t' = []
    | t' :: _ => l' + counter j = L /\ counter j < depth t'
    end.
Proof.
  intros H. destruct (stepBack _ _ _ H) as (b & t & r & ab & c & E & H1).
  destruct (upToRoot f _ _ _ _ _ _ H1) as (b' & t' & r' & Hu & H2).
  destruct (over_consistent _ _ _ _ _ H2) as (Hc & Ef).
  destruct f as [|x f]; [now destruct (rev b')|].
  pose proof (over_first _ _ _ Hc eq_refl) as H3.
  pose proof (consistent_depth _ _ (over_focus _ _ _ _ _ _ _ H3)) as Hd.
  destruct (downBegin _ L _ _ _ _ _ _ H3 Hd ltac:(lia)) as (l' & j & Hj & Hoj & HT & Hf).
  exists l', j. spl; auto.
  - unfold moveToFirstOnLevel. rewrite E. cbn [bind].
    eapply returns_bind; [exact Hu|]. cbn [above before after]. rewrite <- Ef, iteratorAt_first. exact Hj.
  - rewrite HT. unfold TL, allL, TP. cbn [above before after fut]. now rewrite app_nil_r.
Qed.
Lemma lastOnLevel f l i L : over f l i ->
  exists l' b' t' r' ab' c', returns (fun n => moveToLastOnLevel n L i) (mk b' (t' :: r') ab' c') /\
    over f l' (mk b' (t' :: r') ab' c') /\
    ((l' + c' = L /\ c' < depth t' /\ exists D, allL L f = D ++ [mk b' (t' :: r') ab' 0]) \/
     (l' + c' < L /\ allL L f = [])).
Proof.
  intros H. destruct (stepBack _ _ _ H) as (b & t & r & ab & c & E & H1).
  destruct (upToRoot f _ _ _ _ _ _ H1) as (b' & t' & r' & Hu & H2).
  destruct (over_consistent _ _ _ _ _ H2) as (Hc & Ef).
  destruct (snoc_or_nil f) as [En|(g & x & En)]; [subst f; now destruct (rev b')|].
  assert (Hc' : consistentForest (g ++ [x])) by now rewrite <- En.
  pose proof (over_last _ _ _ Hc' En) as H3.
  pose proof (consistent_depth _ _ (over_focus _ _ _ _ _ _ _ H3)) as Hd.
  destruct (downEnd f L _ _ _ _ _ _ H3 ltac:(lia)) as (l2 & b2 & t2 & r2 & ab2 & c2 & Hj & Ho & R).
  rewrite BL_last, <- En in R by exact Hc'.
  exists l2, b2, t2, r2, ab2, c2. spl; auto.
  unfold moveToLastOnLevel. rewrite E. cbn [bind].
  eapply returns_bind; [exact Hu|]. cbn [above before after]. rewrite <- Ef, En, iteratorAt_last. exact Hj.
Qed.

Lemma TL_suffix f l i L : over f l i -> exists D, allL L f = D ++ TL L i.
Proof.
  intros H. destruct (positions_suffix _ _ _ H) as [D E]. exists (filter (lives L) D).
  unfold allL. now rewrite E, filter_app.
Qed.
Lemma allL_nodup L f : NoDup (allL L f).
Proof. apply NoDup_filter. eapply NoDup_map_inv. apply positions_nodup. Qed.
Lemma nodup_suffix {A} (D D' R : list A) x : NoDup (D ++ [x]) -> D ++ [x] = D' ++ x :: R -> R = [].
Proof.
  intros H E. destruct (snoc_or_nil R) as [->|(R' & y & ->)]; [reflexivity|exfalso].
  rewrite E in H. apply NoDup_remove_2 in H. apply H. apply in_or_app. right.
  replace (D' ++ x :: R' ++ [y]) with ((D' ++ x :: R') ++ [y]) in E by now rewrite <- app_assoc.
  apply app_inj_tail in E. destruct E as [_ <-]. apply in_or_app. right. now left.
Qed.

(** * The loop from begin() to end() *)
Definition visits (m : Method) (f : list T) (i : I) (r : list V) : Prop :=
  exists N, forall k n, N <= k -> N <= n -> visitFrom k n m f i = Some r.
Lemma visits_stop m f i e : returns (fun n => end_ n m f) e -> iterEqual i e = true -> visits m f i [].
Proof.
  intros [N HN] E. exists N. intros k n _ Hn. destruct k; cbn; rewrite HN by lia; cbn; now rewrite E.
Qed.
Lemma visits_step m f b t r ab c e i' l : returns (fun n => end_ n m f) e ->
  iterEqual (mk b (t :: r) ab c) e = false ->
  returns (fun n => increment n m (mk b (t :: r) ab c)) i' -> visits m f i' l ->
  visits m f (mk b (t :: r) ab c) (data t :: l).
Proof.
  intros [N HN] E [M HM] [K HK]. exists (S (N + M + K)). intros k n Hk Hn.
  destruct k as [|k]; [lia|]. cbn [visitFrom]. rewrite HN by lia. cbn [bind]. rewrite E.
  cbn [entry after bind]. rewrite HM by lia. cbn [bind]. rewrite HK by lia. reflexivity.
Qed.
Lemma visits_returns m f i r : returns (fun n => begin n m f) i -> visits m f i r ->
  returns (fun n => visit n m f) r.
Proof.
  intros [N HN] [M HM]. exists (N + M). intros n Hn. unfold visit. rewrite HN by lia. cbn.
  apply HM; lia.
Qed.
Lemma iterEqual_refl (i : I) : iterEqual i i = true.
Proof.
  unfold iterEqual. destruct (atEnd i); cbn [negb andb]; [reflexivity|].
  destruct (list_eq_dec Nat.eq_dec (place i) (place i)) as [|N]; [reflexivity|now elim N].
Qed.
Lemma iterEqual_end b t r ab c b' ab' c' : iterEqual (mk b (t :: r) ab c) (mk b' [] ab' c') = false.
Proof. reflexivity. Qed.
Lemma iterEqual_other f l l' b t r ab c b' t' r' ab' c' :
  over f l (mk b (t :: r) ab c) -> over f l' (mk b' (t' :: r') ab' c') ->
  mk b (t :: r) ab 0 <> mk b' (t' :: r') ab' 0 ->
  iterEqual (mk b (t :: r) ab c) (mk b' (t' :: r') ab' c') = false.
Proof.
  intros H H' N. unfold iterEqual; cbn [atEnd after negb andb].
  destruct (list_eq_dec Nat.eq_dec _ _) as [E|]; [|reflexivity].
  elim N. eapply same_place; eassumption.
Qed.

(** * Single level traversal *)
Lemma begin_single t r L : consistentForest (t :: r) ->
  exists l' j, returns (fun n => begin n (SingleLevel L) (t :: r)) j /\ over (t :: r) l' j /\
    TL L j = allL L (t :: r) /\
    match after j with
    | [] => TP j = [] /\ exists t' b', before j = t' :: b' /\ children t' = []
    | t' :: _ => l' + counter j = L /\ counter j < depth t'
    end.
Proof.
  intros H. pose proof (over_first _ _ _ H eq_refl) as H3.
  pose proof (over_focus _ _ _ _ _ _ _ H3) as Ht.
  pose proof (consistent_depth _ _ Ht) as Hd. pose proof (consistent_level _ _ Ht) as El.
  destruct (downBegin _ L _ _ _ _ _ _ H3 Hd ltac:(lia)) as (l' & j & Hj & Hoj & HT & Hf).
  exists l', j. spl; auto.
  - unfold begin. rewrite iteratorAt_first. cbn [bind getIterator].
    unfold currentLevel; cbn [entry after bind counter]. rewrite El. cbn [Nat.add].
    destruct (Nat.ltb_spec L 0); [lia|].
    apply (returns_bind (fun n => moveDownToLevelBegin n L (mk [] (t :: r) [] 0)) (fun j _ => Some j) j j Hj).
    apply returns_ret.
  - rewrite HT. unfold TL, allL, TP. cbn [above before after fut]. now rewrite app_nil_r.
Qed.
Lemma last_of_suffix {A} (D D' : list A) x y : D ++ [x] = D' ++ [y] -> x = y.
Proof. intros E. now apply app_inj_tail in E. Qed.

Lemma single_level_visit f L : consistentForest f -> allL L f <> [] ->
  returns (fun n => visit n (SingleLevel L) f) (map data (onLevel L f)).
Proof.
  intros Hf Hne. destruct f as [|x0 f0]; [now elim Hne|]. set (f := x0 :: f0) in *.
  destruct (begin_single x0 f0 L Hf) as (l & i & Hb & Hi & HT & Hai). fold f in Hb, Hi, HT.
  (* where end() is computed from *)
  assert (He : exists le be te re abe ce, returns (fun n => end_ n (SingleLevel L) f) (mk (te :: be) re abe ce) /\
     over f le (mk be (te :: re) abe ce) /\ le + ce = L /\ ce < depth te /\
     restL L (mk be (te :: re) abe ce) = [] /\ exists D, allL L f = D ++ [mk be (te :: re) abe 0]).
  { destruct (snoc_or_nil f) as [En|(g & x & En)]; [discriminate|].
    assert (Hc' : consistentForest (g ++ [x])) by now rewrite <- En.
    pose proof (over_last _ _ _ Hc' En) as H3.
    pose proof (over_focus _ _ _ _ _ _ _ H3) as Ht.
    pose proof (consistent_depth _ _ Ht) as Hd. pose proof (consistent_level _ _ Ht) as El.
    destruct (downBegin f L _ _ _ _ _ _ H3 Hd ltac:(lia)) as (l1 & j1 & Hj1 & Ho1 & _ & _).
    destruct (lastOnLevel f _ _ L Ho1) as (l2 & b2 & t2 & r2 & ab2 & c2 & Hj2 & Ho2 & [(E2 & Hc2 & D & ED)|(_ & E0)]);
      [|congruence].
    assert (Hrest : restL L (mk b2 (t2 :: r2) ab2 c2) = []).
    { destruct (TL_suffix _ _ _ L Ho2) as [D' ED'].
      rewrite (TL_at f l2) in ED' by (auto; lia).
      eapply nodup_suffix; [rewrite <- ED; apply allL_nodup|rewrite <- ED; exact ED']. }
    exists l2, b2, t2, r2, ab2, c2. spl; eauto.
    unfold end_. unfold f at 1. fold f. rewrite En, iteratorAt_last. cbn [bind getIterator].
    unfold currentLevel; cbn [entry after bind counter]. rewrite El. cbn [Nat.add].
    destruct (Nat.ltb_spec L 0); [lia|].
    eapply returns_bind; [exact Hj1|]. eapply returns_bind; [exact Hj2|].
    unfold increment, atEnd; cbn [after].
    destruct (nextOnLevel f L _ _ _ _ _ _ Ho2 Hc2 E2) as [[_ Hn]|(l3 & b3 & t3 & r3 & ab3 & c3 & Hn & Ho3 & Hc3 & E3 & HR)].
    - exact Hn.
    - exfalso. rewrite Hrest in HR. rewrite (TL_at f l3) in HR by (auto; lia). discriminate. }
  destruct He as (le & be & te & re & abe & ce & He & Hoe & Ele & Hce & Hre & D & ED).
  (* the end is not an entry of the level *)
  assert (Hneq : forall l b t r ab c, over f l (mk b (t :: r) ab c) -> l + c = L -> c < depth t ->
     iterEqual (mk b (t :: r) ab c) (mk (te :: be) re abe ce) = false).
  { intros l1 b t r ab c Ho E1 Hc1. destruct re as [|x re]; [reflexivity|].
    apply (iterEqual_other f l1 le); auto; [eapply over_next; exact Hoe|].
    intros E. inversion E; subst b t r ab.
    assert (Hl : livesOn L x = false).
    { unfold restL in Hre. unfold rest in Hre; cbn [after above before preF] in Hre.
      rewrite preT_eq in Hre. cbn [app filter] in Hre. unfold lives at 1 in Hre. cbn [after] in Hre.
      destruct (livesOn L x); [discriminate|reflexivity]. }
    pose proof (consistent_level _ _ (over_focus _ _ _ _ _ _ _ Ho)) as El.
    rewrite livesOn_true in Hl by lia. discriminate. }
  (* the loop *)
  assert (Loop : forall R l b t r ab c m, over f l (mk b (t :: r) ab c) -> l + c = L -> c < depth t ->
     restL L (mk b (t :: r) ab c) = R -> map entry R = map Some m ->
     visits (SingleLevel L) f (mk b (t :: r) ab c) (data t :: map data m)).
  { induction R as [|j R IH]; intros l1 b t r ab c m Ho E1 Hc1 HR Hm.
    - destruct m; [|discriminate]. cbn [map].
      assert (E : mk b (t :: r) ab c = mk be (te :: re) abe ce).
      { destruct (TL_suffix _ _ _ L Ho) as [D' ED']. rewrite (TL_at f l1), HR in ED' by (auto; lia).
        rewrite ED in ED'. apply last_of_suffix in ED'. inversion ED'; subst.
        pose proof (consistent_level _ _ (over_focus _ _ _ _ _ _ _ Ho)).
        pose proof (consistent_level _ _ (over_focus _ _ _ _ _ _ _ Hoe)).
        f_equal. lia. }
      destruct (nextOnLevel f L _ _ _ _ _ _ Ho Hc1 E1) as [[_ Hn]|(l3 & b3 & t3 & r3 & ab3 & c3 & Hn & Ho3 & Hc3 & E3 & HR3)].
      + eapply visits_step; [exact He|now apply (Hneq l1)|exact Hn|].
        eapply visits_stop; [exact He|]. inversion E; subst. apply iterEqual_refl.
      + exfalso. rewrite HR in HR3. rewrite (TL_at f l3) in HR3 by (auto; lia). discriminate.
    - destruct m as [|t' m]; [discriminate|]. cbn [map] in Hm |- *. inversion Hm as [[Ej Hm']].
      destruct (nextOnLevel f L _ _ _ _ _ _ Ho Hc1 E1) as [[HR0 Hn]|(l3 & b3 & t3 & r3 & ab3 & c3 & Hn & Ho3 & Hc3 & E3 & HR3)].
      + exfalso. rewrite HR in HR0. discriminate.
      + rewrite HR, (TL_at f l3) in HR3 by (auto; lia). inversion HR3 as [[E4 E5]].
        eapply visits_step; [exact He|now apply (Hneq l1)|exact Hn|].
        rewrite E4 in Ej. cbn in Ej. inversion Ej; subst t'.
        apply (IH l3); auto. }
  (* start *)
  assert (HmL : map entry (allL L f) = map Some (onLevel L f)).
  { apply filter_lives. apply preF_entries. }
  destruct i as [b a ab c]. cbn [after counter] in Hai. destruct a as [|t r].
  { exfalso. apply Hne. rewrite <- HT. unfold TL. now rewrite (proj1 Hai). }
  rewrite <- HT, (TL_at f l) in HmL by (auto; lia). 
  destruct (onLevel L f) as [|t' m] eqn:Eo; [discriminate|]. cbn [map] in HmL |- *.
  inversion HmL as [[E1 E2]]. subst t'.
  eapply visits_returns; [exact Hb|]. eapply (Loop _ l); auto; try tauto. 
Qed.

(** * Plain forests: pre-order *)
Lemma plain_depth f l b t r ab c : plainForest f -> over f l (mk b (t :: r) ab c) -> depth t = 1.
Proof.
  intros [_ Hp] H. pose proof (norm_in _ _ _ _ _ _ _ H) as Hi.
  apply (in_map entry) in Hi. unfold positions in Hi. rewrite preF_entries in Hi. cbn in Hi.
  apply in_map_iff in Hi. destruct Hi as (t' & E & Ht'). inversion E; subst.
  rewrite Forall_forall in Hp. auto.
Qed.
Lemma plain_frames f l b t r ab c : plainForest f -> over f l (mk b (t :: r) ab c) ->
  Forall (fun fr => f_depth fr = 1) ab.
Proof.
  intros Hp. revert l b t r c. induction ab as [|fr up IH]; intros l b t r c H; [constructor|].
  destruct (over_parent _ _ _ _ _ _ _ _ 0 H) as (_ & _ & Ho).
  constructor; [|eapply IH; exact Ho]. exact (plain_depth _ _ _ _ _ _ _ Hp Ho).
Qed.
Lemma TP_nil_end b t r ab c : TP (mk b (t :: r) ab c) <> [].
Proof. rewrite TP_cons. discriminate. Qed.

Lemma nextPre_plain f l b t r ab : plainForest f -> over f l (mk b (t :: r) ab 0) ->
  exists l' j, returns (fun n => moveToNextPreOrder n (mk b (t :: r) ab 0)) j /\ over f l' j /\
    TP (mk b (t :: r) ab 0) = mk b (t :: r) ab 0 :: TP j /\ counter j = 0 /\
    (after j = [] <-> TP j = []).
Proof.
  intros Hp H. pose proof (plain_depth _ _ _ _ _ _ _ Hp H) as Hd.
  destruct (nextPre f l b t r ab 0 H ltac:(lia)) as (l' & j & Hj & Ho & [(Hb & _)|(_ & HT & Hc & _ & He)]);
    [lia|].
  exists l', j. spl; auto.
  - rewrite HT. now rewrite TP_cons.
  - split; [intros E; now apply He|]. intros E. destruct j as [bj [|tj rj] abj cj]; [reflexivity|].
    now apply TP_nil_end in E.
Qed.
Lemma positions_first t r : TP (mk [] (t :: r) [] 0) = positions (t :: r).
Proof. unfold TP. cbn [above before after fut]. now rewrite app_nil_r. Qed.

Lemma end_pre (f : list T) : plainForest f -> f <> [] ->
  exists b ab, returns (fun n => end_ n PreOrder f) (mk b [] ab 0).
Proof.
  intros Hp Hne. destruct (snoc_or_nil f) as [En|(g & x & En)]; [congruence|].
  assert (Hc' : consistentForest (g ++ [x])) by (rewrite <- En; apply Hp).
  pose proof (over_last _ _ _ Hc' En) as H3.
  pose proof (plain_depth _ _ _ _ _ _ _ Hp H3) as Hd.
  destruct (descendLast f _ _ _ _ _ _ H3 ltac:(lia)) as (l2 & b2 & t2 & r2 & ab2 & c2 & L2 & Ho2 & Hleaf & Hc2 & Hr2 & Hl2 & _).
  specialize (Hl2 eq_refl). subst r2.
  assert (c2 = 0) by (pose proof (plain_depth _ _ _ _ _ _ _ Hp Ho2); lia). subst c2.
  destruct (nextPre_plain f l2 _ _ _ _ Hp Ho2) as (l3 & j & Hj & Ho3 & HT & Hc3 & He).
  assert (Ea : after j = []).
  { apply (proj2 He). rewrite TP_cons, Hleaf in HT. cbn [preF app] in HT. injection HT as E.
    rewrite <- E, Hr2. reflexivity. }
  exists (before j), (above j).
  destruct j as [bj aj abj cj]. cbn [after counter before above] in *. subst aj cj.
  unfold end_. destruct f as [|f0 f1]; [congruence|]. rewrite En, iteratorAt_last. cbn [bind getIterator].
  eapply returns_bind; [exact (loops_returns _ _ _ _ L2)|].
  unfold increment, atEnd; cbn [after]. exact Hj.
Qed.
Lemma begin_pre t r : returns (fun n => begin n PreOrder (t :: r)) (mk [] (t :: r) [] 0).
Proof. exists 0. intros n _. reflexivity. Qed.

Lemma preorder_visit (f : list T) : plainForest f ->
  returns (fun n => visit n PreOrder f) (map data (allEntries f)).
Proof.
  intros Hp. destruct f as [|x0 f0].
  { exists 1. intros fuel Hn. destruct fuel; [lia|reflexivity]. }
  set (f := x0 :: f0) in *.
  destruct (end_pre f Hp ltac:(discriminate)) as (be & abe & He).
  assert (Loop : forall R l b t r ab m, over f l (mk b (t :: r) ab 0) ->
     TP (mk b (t :: r) ab 0) = mk b (t :: r) ab 0 :: R -> map entry R = map Some m ->
     visits PreOrder f (mk b (t :: r) ab 0) (data t :: map data m)).
  { induction R as [|j R IH]; intros l b t r ab m Ho HR Hm;
      destruct (nextPre_plain f l _ _ _ _ Hp Ho) as (l3 & j3 & Hj & Ho3 & HT & Hc3 & Hend);
      rewrite HR in HT; inversion HT as [E]; destruct j3 as [bj aj abj cj]; cbn [after counter] in *; subst cj.
    - destruct m; [|discriminate]. rewrite (proj2 Hend (eq_sym E)) in *.
      eapply visits_step; [exact He|reflexivity|exact Hj|]. eapply visits_stop; [exact He|reflexivity].
    - destruct m as [|t' m]; [discriminate|]. cbn [map] in Hm |- *. inversion Hm as [[Ej Hm']].
      destruct aj as [|tj rj]; [rewrite (proj1 Hend eq_refl) in E; discriminate|].
      assert (HTj : exists R', TP (mk bj (tj :: rj) abj 0) = mk bj (tj :: rj) abj 0 :: R')
        by (rewrite TP_cons; eauto). destruct HTj as [R' HTj]. rewrite HTj in E. inversion E; subst j R'.
      cbn in Ej. inversion Ej; subst t'.
      eapply visits_step; [exact He|reflexivity|exact Hj|]. apply (IH l3); auto. }
  eapply visits_returns; [apply begin_pre|].
  assert (Hall : map entry (positions f) = map Some (allEntries f)) by apply preF_entries.
  unfold f at 1 in Hall. rewrite <- positions_first in Hall. rewrite TP_cons in Hall.
  destruct (allEntries f) as [|t m] eqn:Ea; [discriminate|]. cbn [map] in Hall |- *.
  inversion Hall as [[E1 E2]]. subst t.
  eapply (Loop _ 0).
  - apply over_first; [apply Hp|reflexivity].
  - apply TP_cons.
  - exact E2.
Qed.

(** Going back undoes a step. *)
Lemma suffix_head {A} (D D' R : list A) x y : D ++ x :: R = D' ++ y :: R -> x = y.
Proof.
  intros E. assert (H : x :: R = y :: R); [|now inversion H].
  apply (suffix_eq D D'); auto.
Qed.
Lemma prevPre_plain f l j : plainForest f -> over f l j -> counter j = 0 ->
  TP j <> positions f ->
  exists l' b t r ab, returns (fun n => moveToPreviousPreOrder n j) (mk b (t :: r) ab 0) /\
    over f l' (mk b (t :: r) ab 0) /\ TP (mk b (t :: r) ab 0) = mk b (t :: r) ab 0 :: TP j.
Proof.
  intros Hp Ho Hc Hnb. destruct j as [b a ab c]. cbn [counter] in Hc. subst c.
  assert (Back : forall t b', b = t :: b' ->
    exists l' b1 t1 r1 ab1, returns (fun n => do i1 <- ptrPrev (mk b a ab 0) ;; while n hasChild moveToLastChild i1) (mk b1 (t1 :: r1) ab1 0) /\
    over f l' (mk b1 (t1 :: r1) ab1 0) /\ TP (mk b1 (t1 :: r1) ab1 0) = mk b1 (t1 :: r1) ab1 0 :: TP (mk b a ab 0)).
  { intros t b' ->. pose proof (over_prev _ _ _ _ _ _ _ 0 Ho) as H1.
    pose proof (plain_depth _ _ _ _ _ _ _ Hp H1) as Hd.
    destruct (descendLast f _ _ _ _ _ _ H1 ltac:(lia)) as (l2 & b2 & t2 & r2 & ab2 & c2 & L2 & Ho2 & Hleaf & Hc2 & Hr2 & _).
    assert (c2 = 0) by (pose proof (plain_depth _ _ _ _ _ _ _ Hp Ho2); lia). subst c2.
    exists l2, b2, t2, r2, ab2. spl; auto.
    - unfold ptrPrev; cbn [before bind after above counter]. exact (loops_returns _ _ _ _ L2).
    - rewrite TP_cons, Hleaf. cbn [preF app]. rewrite Hr2. f_equal. symmetry. apply TP_next. }
  unfold moveToPreviousPreOrder, atEnd. cbn [after counter].
  destruct a as [|t r].
  - cbn [bind]. destruct b as [|t b]; [|now apply (Back t b)].
    destruct Ho as (_ & _ & _ & Hn & _). now elim Hn.
  - rewrite firstSibling_eq. destruct b as [|t0 b]; cbn [isLast1 not' bind negb andb' Nat.eqb].
    2:{ now apply (Back t0 b). }
    rewrite (root_eq _ _ _ _ _ _ _ Ho). cbn [bind].
    destruct ab as [|fr up].
    + exfalso. apply Hnb. assert (l = 0) by (destruct Ho as (Ho & _); now inversion Ho). subst l. destruct (over_consistent _ _ _ _ _ Ho) as (_ & ->).
      cbn [rev app]. apply positions_first.
    + cbn [negb orb]. destruct (over_parent _ _ _ _ _ _ _ _ (f_depth fr - 1) Ho) as (_ & _ & H1).
      pose proof (plain_frames _ _ _ _ _ _ _ Hp Ho) as Hfr. inversion Hfr as [|? ? Hf1 _]; subst.
      rewrite (parent_up _ _ _ _ _ _ _ Ho). rewrite Hf1 in *. cbn [Nat.sub] in *.
      eexists _, _, _, _, _. split; [apply returns_ret|]. split; [exact H1|].
      rewrite TP_cons, frameOf_plug. cbn [children plug rev app]. f_equal.
Qed.

Lemma over_begin_pre t r : plainForest (t :: r) -> over (t :: r) 0 (mk [] (t :: r) [] 0).
Proof. intros Hp. apply over_first; [apply Hp|reflexivity]. Qed.

Lemma undo_pre f l b t r ab : plainForest f -> over f l (mk b (t :: r) ab 0) ->
  exists j, returns (fun n => increment n PreOrder (mk b (t :: r) ab 0)) j /\
    returns (fun n => decrement n PreOrder j) (mk b (t :: r) ab 0) /\
    counter j = 0 /\ exists l', over f l' j.
Proof.
  intros Hp Ho. destruct (nextPre_plain f l _ _ _ _ Hp Ho) as (l' & j & Hj & Hoj & HT & Hc & He).
  exists j. spl; eauto.
  destruct (positions_suffix _ _ _ Ho) as [D ED].
  assert (Hnb : TP j <> positions f).
  { rewrite ED, HT. intros E. apply (f_equal (@length _)) in E. rewrite app_length in E. cbn in E. lia. }
  destruct (prevPre_plain f l' j Hp Hoj Hc Hnb) as (l2 & b2 & t2 & r2 & ab2 & Hr & Ho2 & HT2).
  destruct (positions_suffix _ _ _ Ho2) as [D2 ED2].
  rewrite HT in ED. rewrite HT2 in ED2. rewrite ED in ED2. apply suffix_head in ED2.
  rewrite ED2. exact Hr.
Qed.

(** * Plain forests: post-order *)
Fixpoint pfut (ab : list (Frame V)) (s : list T) : list I :=
  match ab with
  | [] => []
  | fr :: up => mk (f_before fr) (plug fr s :: f_after fr) up 0 ::
                postF up (plug fr s :: f_before fr) (f_after fr) [] ++
                pfut up (rev (f_before fr) ++ plug fr s :: f_after fr)
  end.
(** after the entry itself *)
Definition QR (i : I) : list I :=
  match after i with
  | [] => []
  | t :: r => postF (above i) (t :: before i) r [] ++ pfut (above i) (sibs i)
  end.
(** with all its descendants *)
Definition QA (i : I) : list I := postF (above i) (before i) (after i) [] ++ pfut (above i) (sibs i).

Lemma positionsPost_split ab s :
  positionsPost (whole ab s) = pastc ab s ++ postF ab [] s [] ++ pfut ab s.
Proof.
  revert s. induction ab as [|fr up IH]; intros s.
  - cbn. now rewrite app_nil_r.
  - cbn [whole pastc pfut]. rewrite IH, postF_app. cbn [postF].
    rewrite rev_involutive, !app_nil_r, postT_eq, frameOf_plug. cbn [children plug].
    rewrite <- !app_assoc. reflexivity.
Qed.
Lemma post_split f l b t r ab c : over f l (mk b (t :: r) ab c) ->
  positionsPost f = BPx (mk b (t :: r) ab c) ++ mk b (t :: r) ab 0 :: QR (mk b (t :: r) ab c).
Proof.
  intros (_ & _ & _ & _ & <-). unfold BPx, past, QR, sibs; cbn [above before after].
  rewrite positionsPost_split, postF_app. cbn [postF]. rewrite rev_involutive, !app_nil_r, postT_eq.
  rewrite <- !app_assoc. reflexivity.
Qed.
Lemma QA_cons b t r ab c : QA (mk b (t :: r) ab c) =
  postF (frameOf b t r :: ab) [] (children t) [] ++ mk b (t :: r) ab 0 :: QR (mk b (t :: r) ab c).
Proof.
  unfold QA, QR; cbn [above before after postF]. rewrite app_nil_r, postT_eq, <- !app_assoc. reflexivity.
Qed.
Lemma QA_child b t r ab c c' : QA (mk [] (children t) (frameOf b t r :: ab) c') = QA (mk b (t :: r) ab c).
Proof.
  rewrite QA_cons. unfold QA, QR, sibs; cbn [above before after pfut rev app].
  rewrite plug_frameOf. cbn [frameOf f_before f_after]. reflexivity.
Qed.
Lemma QR_next b t r ab c c' : QR (mk b (t :: r) ab c) = QA (mk (t :: b) r ab c').
Proof. unfold QA, QR, sibs; cbn [above before after]. now rewrite <- app_cons_assoc. Qed.

Lemma descendFirst f : forall t l b r ab, plainForest f -> over f l (mk b (t :: r) ab 0) ->
  exists l' b' t' r' ab',
    loops (fun _ => hasChild) (fun _ => moveToChild 0) (mk b (t :: r) ab 0) (mk b' (t' :: r') ab' 0) /\
    over f l' (mk b' (t' :: r') ab' 0) /\
    QA (mk b (t :: r) ab 0) = mk b' (t' :: r') ab' 0 :: QR (mk b' (t' :: r') ab' 0).
Proof.
  induction t as [v l0 d ch IH] using Tree_ind'. intros l b r ab Hp H.
  set (t := Node v l0 d ch) in *. destruct ch as [|x ch].
  - exists l, b, t, r, ab. spl; auto.
    + apply loops_stop, returns_const. reflexivity.
    + now rewrite QA_cons.
  - pose proof (plain_depth _ _ _ _ _ _ _ Hp H) as Hd.
    pose proof (over_child _ _ _ _ _ _ _ 0 0 H ltac:(cbn; lia)) as Ho. cbn [firstn skipn rev] in Ho.
    change (children t) with (x :: ch) in Ho.
    inversion IH; subst. destruct (H2 _ _ _ _ Hp Ho) as (l' & b' & t' & r' & ab' & L & Ho' & HQ).
    exists l', b', t', r', ab'. spl; auto.
    + eapply loops_step; [| |exact L]; apply returns_const; [reflexivity|].
      rewrite child_down; [reflexivity|lia|cbn; lia].
    + rewrite <- HQ. symmetry. exact (QA_child b t r ab 0 0).
Qed.

Lemma nextPost_plain f l b t r ab : plainForest f -> over f l (mk b (t :: r) ab 0) ->
  (r = [] /\ ab = [] /\ QR (mk b (t :: r) ab 0) = [] /\
   returns (fun n => moveToNextPostOrder n (mk b (t :: r) ab 0)) (mk (t :: b) [] [] 0)) \/
  exists l' b' t' r' ab',
    returns (fun n => moveToNextPostOrder n (mk b (t :: r) ab 0)) (mk b' (t' :: r') ab' 0) /\
    over f l' (mk b' (t' :: r') ab' 0) /\
    QR (mk b (t :: r) ab 0) = mk b' (t' :: r') ab' 0 :: QR (mk b' (t' :: r') ab' 0).
Proof.
  intros Hp H. unfold moveToNextPostOrder. rewrite lastSibling_eq. cbn [bind counter Nat.eqb].
  destruct r as [|x r]; cbn [isLast1 negb andb].
  - rewrite (root_eq _ _ _ _ _ _ _ H). cbn [bind]. destruct ab as [|fr up]; cbn [andb].
    + left. spl; auto. apply returns_const. reflexivity.
    + right. pose proof (plain_frames _ _ _ _ _ _ _ Hp H) as Hfr. inversion Hfr as [|? ? Hf1 _]; subst.
      destruct (over_parent _ _ _ _ _ _ _ _ (f_depth fr - 1) H) as (_ & _ & H1).
      rewrite (parent_up _ _ _ _ _ _ _ H). rewrite Hf1 in *. cbn [Nat.sub] in *.
      eexists _, _, _, _, _. split; [apply returns_ret|]. split; [exact H1|]. reflexivity.
  - right. pose proof (over_next _ _ _ _ _ _ _ 0 H) as H1.
    destruct (descendFirst f _ _ _ _ _ Hp H1) as (l' & b' & t' & r' & ab' & L & Ho & HQ).
    exists l', b', t', r', ab'. spl; auto.
    + unfold ptrNext; cbn [after bind before above counter]. exact (loops_returns _ _ _ _ L).
    + rewrite (QR_next b t (x :: r) ab 0 0). exact HQ.
Qed.

Lemma end_post (f : list T) : plainForest f -> f <> [] ->
  exists b, returns (fun n => end_ n PostOrder f) (mk b [] [] 0).
Proof.
  intros Hp Hne. destruct (snoc_or_nil f) as [En|(g & x & En)]; [congruence|].
  assert (Hc' : consistentForest (g ++ [x])) by (rewrite <- En; apply Hp).
  pose proof (over_last _ _ _ Hc' En) as H3.
  exists (x :: rev g). unfold end_. destruct f as [|f0 f1]; [congruence|].
  rewrite En, iteratorAt_last. cbn [bind getIterator]. unfold increment, atEnd; cbn [after].
  destruct (nextPost_plain _ _ _ _ _ _ Hp H3) as [(_ & _ & _ & Hn)|(l' & b' & t' & r' & ab' & _ & _ & HQ)].
  - exact Hn.
  - discriminate.
Qed.
Lemma begin_post (f : list T) : plainForest f -> f <> [] ->
  exists l b t r ab, returns (fun n => begin n PostOrder f) (mk b (t :: r) ab 0) /\
    over f l (mk b (t :: r) ab 0) /\
    positionsPost f = mk b (t :: r) ab 0 :: QR (mk b (t :: r) ab 0).
Proof.
  intros Hp Hne. destruct f as [|x f]; [congruence|].
  destruct (descendFirst _ _ _ _ _ _ Hp (over_begin_pre _ _ Hp)) as (l' & b' & t' & r' & ab' & L & Ho & HQ).
  exists l', b', t', r', ab'. spl; auto.
  - unfold begin. rewrite iteratorAt_first. cbn [bind getIterator]. exact (loops_returns _ _ _ _ L).
  - rewrite <- HQ. unfold QA; cbn [above before after pfut]. now rewrite app_nil_r.
Qed.

Lemma postorder_visit (f : list T) : plainForest f ->
  returns (fun n => visit n PostOrder f) (map data (allEntriesPost f)).
Proof.
  intros Hp. destruct f as [|x0 f0].
  { exists 1. intros fuel Hn. destruct fuel; [lia|reflexivity]. }
  set (f := x0 :: f0) in *. assert (Hne : f <> []) by discriminate.
  destruct (end_post f Hp Hne) as (be & He).
  destruct (begin_post f Hp Hne) as (l & b & t & r & ab & Hb & Ho & HQ).
  assert (Loop : forall R l b t r ab m, over f l (mk b (t :: r) ab 0) ->
     QR (mk b (t :: r) ab 0) = R -> map entry R = map Some m ->
     visits PostOrder f (mk b (t :: r) ab 0) (data t :: map data m)).
  { clear l b t r ab Hb Ho HQ.
    induction R as [|j R IH]; intros l b t r ab m Ho HR Hm;
    destruct (nextPost_plain f l _ _ _ _ Hp Ho) as [(-> & -> & HQ & Hn)|(l' & b' & t' & r' & ab' & Hn & Ho' & HQ)].
    - destruct m; [|discriminate]. eapply visits_step; [exact He|reflexivity|exact Hn|].
      eapply visits_stop; [exact He|reflexivity].
    - congruence.
    - congruence.
    - destruct m as [|t2 m]; [discriminate|]. cbn [map] in Hm |- *. inversion Hm as [[Ej Hm']].
      rewrite HR in HQ. inversion HQ as [[E1 E2]]. rewrite E1 in Ej. cbn in Ej. inversion Ej; subst t2.
      eapply visits_step; [exact He|reflexivity|exact Hn|]. eapply IH; eauto. }
  eapply visits_returns; [exact Hb|].
  assert (Hall : map entry (positionsPost f) = map Some (allEntriesPost f)) by apply postF_entries.
  rewrite HQ in Hall. destruct (allEntriesPost f) as [|t' m]; [discriminate|].
  cbn [map] in Hall |- *. inversion Hall as [[E1 E2]]. subst t'. eapply Loop; eauto.
Qed.

Lemma undo_post f l b t r ab : plainForest f -> over f l (mk b (t :: r) ab 0) ->
  exists j, returns (fun n => increment n PostOrder (mk b (t :: r) ab 0)) j /\
    returns (fun n => decrement n PostOrder j) (mk b (t :: r) ab 0) /\
    counter j = 0 /\ (atEnd j = false -> exists l', over f l' j).
Proof.
  intros Hp Ho. unfold increment, decrement, atEnd at 1; cbn [after].
  destruct (nextPost_plain f l _ _ _ _ Hp Ho) as [(-> & -> & HQ & Hn)|(l' & b' & t' & r' & ab' & Hn & Ho' & HQ)].
  - exists (mk (t :: b) [] [] 0). spl; auto; [|discriminate]. exists 0. intros n _. reflexivity.
  - exists (mk b' (t' :: r') ab' 0). spl; eauto.
    pose proof (post_split _ _ _ _ _ _ _ Ho) as E1. pose proof (post_split _ _ _ _ _ _ _ Ho') as E2.
    rewrite HQ in E1. rewrite E1 in E2.
    assert (HB : BPx (mk b' (t' :: r') ab' 0) = BPx (mk b (t :: r) ab 0) ++ [mk b (t :: r) ab 0]).
    { apply app_inv_tail with (l := mk b' (t' :: r') ab' 0 :: QR (mk b' (t' :: r') ab' 0)).
      rewrite <- E2, <- app_assoc. reflexivity. }
    destruct (prevPost f _ _ _ _ _ _ Ho') as [(_ & H0 & _)|(_ & l2 & b2 & t2 & r2 & ab2 & c2 & Hj & Ho2 & Cases)].
    + rewrite H0 in HB. now destruct (BPx (mk b (t :: r) ab 0)).
    + destruct Cases as [(Hd & _)|(_ & HB2 & _ & Hz)].
      * rewrite (plain_depth _ _ _ _ _ _ _ Hp Ho') in Hd. lia.
      * rewrite (Hz (plain_frames _ _ _ _ _ _ _ Hp Ho') eq_refl) in *.
        rewrite HB in HB2. apply last_of_suffix in HB2. now rewrite HB2.
Qed.

(** * Traversal of all levels *)
Lemma restL_plain_last f l b t r ab : plainForest f -> over f l (mk b (t :: r) ab 0) ->
  restL l (mk b (t :: r) ab 0) = [] -> r = [].
Proof.
  intros Hp H HR. destruct r as [|x r]; [reflexivity|exfalso].
  pose proof (over_next _ _ _ _ _ _ _ 0 H) as H1. pose proof (plain_depth _ _ _ _ _ _ _ Hp H1) as Hd.
  pose proof (consistent_level _ _ (over_focus _ _ _ _ _ _ _ H1)) as El.
  unfold restL in HR. rewrite <- (TP_next b t (x :: r) ab 0 0) in HR. fold (TL l (mk (t :: b) (x :: r) ab 0)) in HR.
  rewrite (TL_at f l) in HR by (auto; lia). discriminate.
Qed.
Lemma nextMulti f l b t r ab : plainForest f -> over f l (mk b (t :: r) ab 0) ->
  (restL l (mk b (t :: r) ab 0) = [] /\
   exists l' j, returns (fun n => moveToNextMultiLevel n (mk b (t :: r) ab 0)) j /\ over f l' j /\
     TL (S l) j = allL (S l) f /\
     match after j with
     | [] => TP j = [] /\ exists t' b', before j = t' :: b' /\ children t' = []
     | t' :: _ => l' = S l /\ counter j = 0
     end) \/
  exists b' t' r' ab',
    returns (fun n => moveToNextMultiLevel n (mk b (t :: r) ab 0)) (mk b' (t' :: r') ab' 0) /\
    over f l (mk b' (t' :: r') ab' 0) /\
    restL l (mk b (t :: r) ab 0) = mk b' (t' :: r') ab' 0 :: restL l (mk b' (t' :: r') ab' 0).
Proof.
  intros Hp H. pose proof (plain_depth _ _ _ _ _ _ _ Hp H) as Hd.
  pose proof (consistent_level _ _ (over_focus _ _ _ _ _ _ _ H)) as El.
  unfold moveToNextMultiLevel.
  destruct (nextOnLevel f l _ _ _ _ _ _ H ltac:(lia) ltac:(lia)) as [[HR Hn]|(l' & b' & t' & r' & ab' & c' & Hn & Ho & Hc & El' & HR)].
  - left. split; [exact HR|]. assert (r = []) by (eapply restL_plain_last; eassumption). subst r.
    destruct (firstOnLevel f l (mk b [t] ab 0) (S l) H) as (l' & j & Hj & Hoj & HT & Hf).
    exists l', j. spl; auto.
    + eapply returns_bind; [exact Hn|]. cbn [atEnd after ptrPrev before bind above counter].
      unfold currentLevel; cbn [entry after bind counter]. rewrite El, Nat.add_0_r. exact Hj.
    + destruct j as [bj [|tj rj] abj cj]; cbn [after counter] in *; [exact Hf|].
      pose proof (plain_depth _ _ _ _ _ _ _ Hp Hoj). lia.
  - right. pose proof (plain_depth _ _ _ _ _ _ _ Hp Ho) as Hd'.
    assert (c' = 0) by lia. subst c'. assert (l' = l) by lia. subst l'.
    exists b', t', r', ab'. spl; auto.
    + eapply returns_bind; [exact Hn|]. cbn [atEnd after]. apply returns_ret.
    + rewrite HR. apply (TL_at f l); auto; lia.
Qed.
Lemma level_nonempty f : forall ab l b t r c, over f l (mk b (t :: r) ab c) ->
  forall k, k < l + depth t -> allL k f <> [].
Proof.
  induction ab as [|fr up IH]; intros l b t r c H k Hk.
  - assert (l = 0) by (destruct H as (H & _); now inversion H). subst l.
    assert (Hin : In (mk b (t :: r) [] 0) (allL k f)).
    { apply filter_In. split; [eapply norm_in; exact H|]. unfold lives; cbn [after].
      apply livesOn_true; rewrite (consistent_level _ _ (over_focus _ _ _ _ _ _ _ H)); lia. }
    intros E. rewrite E in Hin. destruct Hin.
  - destruct (Nat.le_gt_cases l k) as [Hge|Hlt].
    + assert (Hin : In (mk b (t :: r) (fr :: up) 0) (allL k f)).
      { apply filter_In. split; [eapply norm_in; exact H|]. unfold lives; cbn [after].
        apply livesOn_true; rewrite (consistent_level _ _ (over_focus _ _ _ _ _ _ _ H)); lia. }
      intros E. rewrite E in Hin. destruct Hin.
    + destruct (over_parent _ _ _ _ _ _ _ _ 0 H) as (El & _ & Ho).
      apply (IH _ _ _ _ _ Ho). cbn [plug depth]. lia.
Qed.

Lemma all_level_visit (f : list T) D z : plainForest f -> allEntries f = D ++ [z] ->
  returns (fun n => visit n AllLevel f)
          (map data (flat_map (fun k => onLevel k f) (seq 0 (S (level z))))).
Proof.
  intros Hp Ez. assert (Hne : f <> []) by (intros ->; now destruct D).
  (* the end *)
  assert (He : exists bz tz abz le e, returns (fun n => end_ n AllLevel f) e /\
     over f (level z) (mk bz [tz] abz 0) /\ TP (mk bz [tz] abz 0) = [mk bz [tz] abz 0] /\
     restL (level z) (mk bz [tz] abz 0) = [] /\
     returns (fun n => moveToNextMultiLevel n (mk bz [tz] abz 0)) e /\ over f le e /\
     (after e <> [] -> le = S (level z))).
  { destruct (snoc_or_nil f) as [En|(g & x & En)]; [congruence|].
    assert (Hc' : consistentForest (g ++ [x])) by (rewrite <- En; apply Hp).
    pose proof (over_last _ _ _ Hc' En) as H3.
    pose proof (plain_depth _ _ _ _ _ _ _ Hp H3) as Hd.
    destruct (descendLast f _ _ _ _ _ _ H3 ltac:(lia)) as (l2 & b2 & t2 & r2 & ab2 & c2 & L2 & Ho2 & Hleaf & Hc2 & Hr2 & Hl2 & _).
    specialize (Hl2 eq_refl). subst r2.
    assert (c2 = 0) by (pose proof (plain_depth _ _ _ _ _ _ _ Hp Ho2); lia). subst c2.
    assert (Hrest : rest (mk b2 [t2] ab2 0) = []) by (rewrite Hr2; reflexivity).
    assert (HTz : TP (mk b2 [t2] ab2 0) = [mk b2 [t2] ab2 0]) by (rewrite TP_cons, Hleaf, Hrest; reflexivity).
    assert (Etz : t2 = z).
    { destruct (positions_suffix _ _ _ Ho2) as [D2 ED2]. rewrite HTz in ED2.
      assert (E : map entry (positions f) = map Some (allEntries f)) by apply preF_entries.
      rewrite ED2, Ez, !map_app in E. cbn [map] in E. apply app_inj_tail in E. destruct E as [_ E].
      cbn in E. now inversion E. }
    subst t2. rewrite (consistent_level _ _ (over_focus _ _ _ _ _ _ _ Ho2)).
    assert (HR : restL l2 (mk b2 [z] ab2 0) = []) by (unfold restL; now rewrite Hrest).
    destruct (nextMulti f l2 _ _ _ _ Hp Ho2) as [(_ & le & e & Hn & Hoe & _ & Hf)|(b' & t' & r' & ab' & _ & _ & HR')];
      [|congruence].
    exists b2, z, ab2, le, e. spl; auto.
    - unfold end_. destruct f as [|f0 f1]; [congruence|]. rewrite En, iteratorAt_last. cbn [bind getIterator].
      eapply returns_bind; [exact (loops_returns _ _ _ _ L2)|].
      unfold increment, atEnd; cbn [after]. exact Hn.
    - destruct (after e); [congruence|]. intros _. apply Hf. }
  destruct He as (bz & tz & abz & le & e & He & Hoz & HTz & HRz & Hnz & Hoe & Hle).
  assert (Hneq : forall l b t r ab, over f l (mk b (t :: r) ab 0) -> l <= level z ->
     iterEqual (mk b (t :: r) ab 0) e = false).
  { intros l b t r ab Ho Hl. destruct e as [be [|te re] abe ce]; [reflexivity|].
    apply (iterEqual_other f l le); auto. intros E. inversion E; subst.
    pose proof (consistent_level _ _ (over_focus _ _ _ _ _ _ _ Ho)).
    pose proof (consistent_level _ _ (over_focus _ _ _ _ _ _ _ Hoe)).
    cbn [after] in Hle. specialize (Hle ltac:(discriminate)). lia. }
  assert (Loop : forall k R l b t r ab m, over f l (mk b (t :: r) ab 0) -> l + k = level z ->
     restL l (mk b (t :: r) ab 0) = R -> map entry R = map Some m ->
     visits AllLevel f (mk b (t :: r) ab 0)
       (data t :: map data m ++ map data (flat_map (fun k => onLevel k f) (seq (S l) k)))).
  { induction k as [|k IHk]; induction R as [|j R IHR]; intros l b t r ab m Ho Hl HR Hm;
      (destruct (nextMulti f l _ _ _ _ Hp Ho) as [(HR0 & l' & j' & Hn & Ho' & HT' & Hf')|(b' & t' & r' & ab' & Hn & Ho' & HR')];
       [|]).
    - (* last level, last entry *)
      destruct m; [|discriminate]. cbn [map app seq flat_map].
      assert (l = level z) by lia. subst l.
      assert (E : mk b (t :: r) ab 0 = mk bz [tz] abz 0).
      { destruct (TL_suffix _ _ _ (level z) Ho) as [D1 E1]. destruct (TL_suffix _ _ _ (level z) Hoz) as [D2 E2].
        pose proof (plain_depth _ _ _ _ _ _ _ Hp Ho). pose proof (plain_depth _ _ _ _ _ _ _ Hp Hoz).
        rewrite (TL_at f (level z)), HR in E1 by (auto; lia).
        rewrite (TL_at f (level z)), HRz in E2 by (auto; lia).
        rewrite E1 in E2. now apply last_of_suffix in E2. }
      eapply visits_step; [exact He|now apply (Hneq (level z))| |].
      + unfold increment, atEnd; cbn [after]. rewrite E. exact Hnz.
      + eapply visits_stop; [exact He|apply iterEqual_refl].
    - congruence.
    - congruence.
    - destruct m as [|t2 m]; [discriminate|]. cbn [map app] in Hm |- *. inversion Hm as [[Ej Hm']].
      rewrite HR in HR'. inversion HR' as [[E1 E2]]. rewrite E1 in Ej. cbn in Ej. inversion Ej; subst t2.
      eapply visits_step; [exact He|apply (Hneq l); auto; lia|exact Hn|].
      apply (IHR l); auto.
    - (* on to the next level *)
      destruct m; [|discriminate]. cbn [map app].
      assert (Hne' : allL (S l) f <> []).
      { pose proof (plain_depth _ _ _ _ _ _ _ Hp Hoz). apply (level_nonempty f _ _ _ _ _ _ Hoz). lia. }
      destruct j' as [bj [|tj rj] abj cj]; cbn [after counter] in *.
      { exfalso. apply Hne'. rewrite <- HT'. unfold TL. now rewrite (proj1 Hf'). }
      destruct Hf' as [-> ->].
      eapply visits_step; [exact He|apply (Hneq l); auto; lia|exact Hn|].
      cbn [seq flat_map]. rewrite map_app.
      assert (HmL : map entry (allL (S l) f) = map Some (onLevel (S l) f)).
      { apply filter_lives. apply preF_entries. }
      pose proof (plain_depth _ _ _ _ _ _ _ Hp Ho') as Hd'.
      rewrite <- HT', (TL_at f (S l)) in HmL by (auto; lia).
      destruct (onLevel (S l) f) as [|t2 m2]; [discriminate|]. cbn [map app] in HmL |- *.
      inversion HmL as [[E1 E2]]. subst t2. eapply (IHk _ (S l)); eauto. lia.
    - congruence.
    - congruence.
    - destruct m as [|t2 m]; [discriminate|]. cbn [map app] in Hm |- *. inversion Hm as [[Ej Hm']].
      rewrite HR in HR'. inversion HR' as [[E1 E2]]. rewrite E1 in Ej. cbn in Ej. inversion Ej; subst t2.
      eapply visits_step; [exact He|apply (Hneq l); auto; lia|exact Hn|].
      apply (IHR l); auto. }
  destruct f as [|x0 f0]; [congruence|]. set (f := x0 :: f0) in *.
  assert (Hb : returns (fun n => begin n AllLevel f) (mk [] f [] 0)) by (exists 0; intros n _; reflexivity).
  eapply visits_returns; [exact Hb|].
  pose proof (over_begin_pre _ _ Hp) as Ho. fold f in Ho.
  pose proof (plain_depth _ _ _ _ _ _ _ Hp Ho) as Hd.
  assert (HmL : map entry (allL 0 f) = map Some (onLevel 0 f)).
  { apply filter_lives. apply preF_entries. }
  assert (HT : TL 0 (mk [] (x0 :: f0) [] 0) = allL 0 f).
  { unfold TL, allL. rewrite positions_first. reflexivity. }
  rewrite <- HT, (TL_at f 0) in HmL by (auto; lia).
  cbn [seq flat_map]. rewrite map_app.
  destruct (onLevel 0 f) as [|t2 m2]; [discriminate|]. cbn [map app] in HmL |- *.
  inversion HmL as [[E1 E2]]. subst t2. unfold f at 2. eapply (Loop (level z) _ 0); eauto.
Qed.

(** * Undoing an increment *)
Lemma returns_unique {A} (F : nat -> option A) a b : returns F a -> returns F b -> a = b.
Proof.
  intros [N HN] [M HM]. specialize (HN (max N M) ltac:(lia)). specialize (HM (max N M) ltac:(lia)).
  congruence.
Qed.
Lemma undo (m : Method) (f : list T) i : m = PreOrder \/ m = PostOrder -> plainForest f -> reached m f i ->
  atEnd i = false ->
  exists j, returns (fun n => increment n m i) j /\ returns (fun n => decrement n m j) i.
Proof.
  intros Hm Hp Hi Hne.
  assert (Inv : atEnd i = false -> exists l b t r ab, i = mk b (t :: r) ab 0 /\ over f l i).
  { clear Hne. induction Hi as [i Hb|i j Hi IH Hne Hj]; intros Hne'.
    - destruct f as [|x0 f0].
      { assert (i = emptyIter) by (eapply returns_unique; [exact Hb|]; exists 0; intros; reflexivity).
        subst i. discriminate. }
      destruct Hm as [-> | ->].
      + assert (i = mk [] (x0 :: f0) [] 0)
          by (eapply returns_unique; [exact Hb|]; exists 0; intros; reflexivity).
        subst i. exists 0, [], x0, f0, []. split; [reflexivity|]. now apply over_begin_pre.
      + destruct (begin_post (x0 :: f0) Hp ltac:(discriminate)) as (l & b & t & r & ab & Hb' & Ho & _).
        pose proof (returns_unique _ _ _ Hb Hb') as ->. exists l, b, t, r, ab. auto.
    - destruct (IH Hne) as (l & b & t & r & ab & -> & Ho).
      destruct Hm as [-> | ->].
      + destruct (undo_pre _ _ _ _ _ _ Hp Ho) as (j' & Hj' & _ & Hc & l' & Ho').
        pose proof (returns_unique _ _ _ Hj Hj') as ->.
        destruct j' as [b' [|t' r'] ab' c']; [discriminate|]. cbn [counter] in Hc. subst c'.
        exists l', b', t', r', ab'. auto.
      + destruct (undo_post _ _ _ _ _ _ Hp Ho) as (j' & Hj' & _ & Hc & Ho').
        pose proof (returns_unique _ _ _ Hj Hj') as ->. destruct (Ho' Hne') as (l' & Ho2).
        destruct j' as [b' [|t' r'] ab' c']; [discriminate|]. cbn [counter] in Hc. subst c'.
        exists l', b', t', r', ab'. auto. }
  destruct (Inv Hne) as (l & b & t & r & ab & -> & Ho). destruct Hm as [-> | ->].
  - destruct (undo_pre _ _ _ _ _ _ Hp Ho) as (j & Hj & Hd & _). eauto.
  - destruct (undo_post _ _ _ _ _ _ Hp Ho) as (j & Hj & Hd & _). eauto.
Qed.

(** * Recorded positions *)
Lemma entryAt_root (g : list T) x : entryAt [length g] (g ++ [x]) = Some x.
Proof.
  unfold entryAt. rewrite nth_error_app2, Nat.sub_diag by lia. reflexivity.
Qed.
Lemma end_fold (m : Method) n (g : list T) x : end_ n m (g ++ [x]) =
  (do i1 <- getIterator n m (mk (rev g) [x] [] 0) ;;
   do i2 <- match m with
            | PreOrder | AllLevel => while n hasChild moveToLastChild i1
            | SingleLevel lev => moveToLastOnLevel n lev i1
            | PostOrder => Some i1
            end ;;
   increment n m i2).
Proof.
  unfold end_. rewrite iteratorAt_last. destruct (g ++ [x]) eqn:E; [now destruct g|]. reflexivity.
Qed.
Lemma while_false {St} n (c : St -> option bool) b s : c s = Some false -> while n c b s = Some s.
Proof. intros E. destruct n; cbn; now rewrite E. Qed.
Lemma nextOnLevel_root n (g : list T) v : 
  moveToNextOnLevel n (mk (rev g) [newEntry 0 v] [] 0) = Some (mk (newEntry 0 v :: rev g) [] [] 0).
Proof.
  unfold moveToNextOnLevel. cbn [currentLevel entry after bind]. 
  rewrite while_false; [|rewrite lastSibling_eq; reflexivity].
  cbn [bind]. rewrite lastSibling_eq. reflexivity.
Qed.
Lemma lastOnLevel0 n (b a : list T) g x : rev b ++ a = g ++ [x] -> level x = 0 ->
  (do i3 <- iteratorAt [] (rev b ++ a) (length (rev b ++ a) - 1) ;; moveDownToLevelEnd n 0 i3) =
  Some (mk (rev g) [x] [] 0).
Proof.
  intros E El. rewrite E, iteratorAt_last. cbn [bind]. unfold moveDownToLevelEnd.
  apply while_false. unfold atEnd; cbn [after currentLevel entry bind counter]. rewrite El. reflexivity.
Qed.
Lemma recorded_simple (m : Method) (g : list T) v k :
  m = PreOrder \/ m = PostOrder \/ m = SingleLevel 0 ->
  forall n, recordedPosition n m {| entries_ := g ++ [newEntry 0 v]; maxLevel_ := k |} = Some [length g].
Proof.
  intros Hm n. unfold recordedPosition; cbn [entries_]. rewrite end_fold.
  assert (Hpl : place (mk (rev g) [newEntry 0 v] [] 0) = [length g]).
  { unfold place; cbn. now rewrite rev_length. }
  destruct Hm as [->|[->| ->]]; cbn [getIterator bind].
  - rewrite while_false by reflexivity. cbn [bind]. unfold increment, atEnd; cbn [after].
    unfold moveToNextPreOrder. rewrite hasChild_eq. cbn [newEntry children bind orb].
    unfold canIncreaseCounter; cbn [after depth counter newEntry Nat.sub Nat.ltb Nat.leb].
    rewrite while_false by reflexivity. cbn [bind]. rewrite lastSibling_eq. cbn [isLast1 bind].
    rewrite while_false by reflexivity. cbn [bind ptrNext after before above counter setCounter].
    unfold setCounter, decrement, moveToPreviousPreOrder, atEnd; cbn [after before above bind ptrPrev counter].
    rewrite while_false by reflexivity. cbn [bind entry after]. now rewrite Hpl.
  - unfold increment, atEnd; cbn [after]. unfold moveToNextPostOrder. rewrite lastSibling_eq.
    cbn [bind isLast1 negb andb isRoot entry after newEntry level Nat.eqb counter ptrNext].
    unfold decrement, moveToPreviousPostOrder, hasPreviousPostOrder, atEnd. 
    cbn [after before above bind ptrPrev counter negb entry].
    now rewrite <- Hpl.
  - cbn [currentLevel entry after newEntry level bind counter Nat.add Nat.ltb Nat.leb].
    unfold moveDownToLevelBegin. rewrite while_false by reflexivity. cbn [bind].
    unfold moveToLastOnLevel, stepBackFromEnd, atEnd at 1; cbn [after bind].
    unfold moveUpToLevel, atEnd at 1; cbn [after]. rewrite while_false by reflexivity.
    cbn [bind above before after]. rewrite (lastOnLevel0 n _ _ g (newEntry 0 v)) by (auto; now rewrite rev_involutive).
    cbn [bind]. unfold increment, atEnd; cbn [after]. rewrite nextOnLevel_root. cbn [bind].
    unfold decrement, moveToPreviousOnLevel, atEnd; cbn [after ptrPrev before above counter bind entry].
    now rewrite <- Hpl.
Qed.

(** Backwards from a root in front of which no root has children. *)
Lemma downEnd_leaves (b : list T) : forall t r, level t = 0 -> depth t = 1 -> children t = [] ->
  Forall (fun t => level t = 0 /\ depth t = 1 /\ children t = []) b ->
  exists j, returns (fun n => moveDownToLevelEnd n 1 (mk b (t :: r) [] 0)) j /\ currentLevel j = Some 0.
Proof.
  cut (forall t r, level t = 0 -> depth t = 1 -> children t = [] ->
    Forall (fun t => level t = 0 /\ depth t = 1 /\ children t = []) b ->
    exists j, loops (fun n i => if atEnd i then Some true
                       else do l <- currentLevel i ;;
                            andb' (Some (l <? 1)) (hasPreviousPostOrder n i))
        (fun n => moveToPreviousPostOrder n) (mk b (t :: r) [] 0) j /\ currentLevel j = Some 0).
  { intros H t r H1 H2 H3 H4. destruct (H t r H1 H2 H3 H4) as (j & L & E). exists j. split; [|exact E].
    unfold moveDownToLevelEnd. exact (loops_returns _ _ _ _ L). }
  induction b as [|p b IH]; intros t r El Ed Ec HF.
  - exists (mk [] (t :: r) [] 0). split; [|unfold currentLevel; cbn; now rewrite El].
    apply loops_stop. exists 0. intros n _. unfold atEnd; cbn [after currentLevel entry bind counter].
    rewrite El. cbn [Nat.add Nat.ltb Nat.leb andb' bind].
    unfold hasPreviousPostOrder, atEnd; cbn [after]. rewrite hasChild_eq, Ec, firstSibling_eq.
    cbn [bind isLast1 negb orb]. unfold canIncreaseCounter; cbn [after counter]. rewrite Ed. cbn [Nat.sub Nat.ltb Nat.leb].
    rewrite while_false; [reflexivity|]. unfold isRoot; cbn [entry after bind]. rewrite El. reflexivity.
  - inversion HF as [|? ? (El' & Ed' & Ec') HF']; subst.
    destruct (IH p (t :: r) El' Ed' Ec' HF') as (j & L & E). exists j. split; [|exact E].
    assert (Hh : forall n, hasPreviousPostOrder n (mk (p :: b) (t :: r) [] 0) = Some true).
    { intros n. unfold hasPreviousPostOrder, atEnd; cbn [after]. rewrite hasChild_eq, Ec, firstSibling_eq.
      reflexivity. }
    eapply loops_step; [| |exact L].
    + exists 0. intros n _. unfold atEnd; cbn [after currentLevel entry bind counter].
      rewrite El. cbn [Nat.add Nat.ltb Nat.leb andb' bind]. apply Hh.
    + exists 0. intros n _. unfold moveToPreviousPostOrder. rewrite Hh. cbn [bind negb].
      unfold atEnd; cbn [after]. rewrite hasChild_eq, Ec. cbn [bind orb].
      unfold canIncreaseCounter; cbn [after counter]. rewrite Ed. cbn [Nat.sub Nat.ltb Nat.leb].
      rewrite while_false by (rewrite firstSibling_eq; reflexivity). reflexivity.
Qed.
Lemma prevMulti_inner n fuel p (b : list T) t r : level t = 0 -> level p = 0 ->
  moveToPreviousMultiLevel n fuel (mk (p :: b) (t :: r) [] 0) = Some (mk b (p :: t :: r) [] 0).
Proof.
  intros El Ep. assert (E : moveToPreviousOnLevel fuel (mk (p :: b) (t :: r) [] 0) = Some (mk b (p :: t :: r) [] 0)).
  { unfold moveToPreviousOnLevel, atEnd; cbn [after currentLevel entry bind counter].
    rewrite while_false by (rewrite firstSibling_eq; reflexivity). cbn [bind ptrPrev before after above counter].
    unfold setCounter, moveDownToLevelEnd; cbn [before after above].
    rewrite while_false.
    2: { unfold atEnd, currentLevel; cbn [after entry bind counter]. rewrite El, Ep. reflexivity. }
    cbn [bind currentLevel entry after counter]. rewrite El, Ep. reflexivity. }
  destruct n; cbn [moveToPreviousMultiLevel]; unfold atEnd at 1; cbn [after];
    rewrite firstSibling_eq; cbn [bind isLast1 negb]; exact E.
Qed.

Lemma recorded_all (g : list T) v k : plainForest (g ++ [newEntry 0 v]) ->
  returns (fun n => recordedPosition n AllLevel {| entries_ := g ++ [newEntry 0 v]; maxLevel_ := k |}) [length g].
Proof.
  set (x := newEntry 0 v). intros Hp. set (f := g ++ [x]) in *.
  assert (Hpl : place (mk (rev g) [x] [] 0) = [length g]).
  { unfold place; cbn. now rewrite rev_length. }
  assert (Hx : over f 0 (mk (rev g) [x] [] 0)) by (apply (over_last _ g x); [apply Hp|reflexivity]).
  destruct (firstOnLevel f 0 _ 1 Hx) as (l' & j & Hj & Ho & HT & Hf).
  assert (He : returns (fun n => end_ n AllLevel f) j).
  { apply returns_ext with (G := fun n => moveToFirstOnLevel n 1 (mk (rev g) [x] [] 0)); [|exact Hj].
    intros n. unfold f. rewrite end_fold. cbn [getIterator bind]. rewrite while_false by reflexivity.
    cbn [bind]. unfold increment, atEnd; cbn [after]. unfold moveToNextMultiLevel.
    unfold x. rewrite nextOnLevel_root. cbn [bind]. reflexivity. }
  assert (Hd : exists c', returns (fun n => decrement n AllLevel j) (mk (rev g) [x] [] c')).
  { destruct j as [b [|t r] ab c].
    - (* no entry on level 1 *)
      cbn [after before] in Hf. destruct Hf as (HTj & t' & b' & -> & Hleaf).
      pose proof (over_prev _ _ _ _ _ _ _ 0 Ho) as Ho'.
      assert (HT' : TP (mk b' [t'] ab 0) = [mk b' [t'] ab 0]).
      { rewrite TP_cons, Hleaf. rewrite <- (TP_next b' t' [] ab 0 c), HTj. reflexivity. }
      destruct (positions_suffix _ _ _ Ho') as [D ED]. rewrite HT' in ED.
      assert (HTx : TP (mk (rev g) [x] [] 0) = [mk (rev g) [x] [] 0]) by (rewrite TP_cons; reflexivity).
      destruct (positions_suffix _ _ _ Hx) as [D' ED']. rewrite HTx in ED'.
      rewrite ED in ED'. apply app_inj_tail in ED'. destruct ED' as [_ E].
      inversion E; subst b' t' ab.
      exists c. exists 0. intros n _. unfold decrement.
      destruct n; reflexivity.
    - cbn [after counter] in Hf. pose proof (plain_depth _ _ _ _ _ _ _ Hp Ho) as Hdt.
      assert (c = 0) by lia. subst c. assert (l' = 1) by lia. subst l'.
      assert (b = []).
      { destruct b as [|p b]; [reflexivity|exfalso].
        pose proof (over_prev _ _ _ _ _ _ _ 0 Ho) as Ho'. pose proof (plain_depth _ _ _ _ _ _ _ Hp Ho') as Hdp.
        destruct (TL_suffix _ _ _ 1 Ho') as [D ED]. rewrite (TL_at f 1) in ED by (auto; lia).
        unfold restL in ED. rewrite <- (TP_next b p (t :: r) ab 0 0) in ED.
        fold (TL 1 (mk (p :: b) (t :: r) ab 0)) in ED. rewrite HT in ED.
        apply (f_equal (@length _)) in ED. rewrite app_length in ED. cbn in ED. lia. }
      subst b.
      destruct ab as [|fr up]; [exfalso; destruct Ho as (Hc & _); inversion Hc|].
      pose proof (plain_frames _ _ _ _ _ _ _ Hp Ho) as Hfr. inversion Hfr as [|? ? Hd1 _]; subst.
      destruct (over_parent _ _ _ _ _ _ _ _ 0 Ho) as (El & _ & Ho').
      assert (Elf : f_level fr = 0) by lia. rewrite Elf in Ho'. cbn [rev app] in Ho'.
      assert (up = []).
      { destruct Ho' as (Hc & _). cbn [above] in Hc. inversion Hc; [reflexivity|lia]. }
      subst up.
      destruct (over_consistent _ _ _ _ _ Ho') as (Hc & Ef).
      (* no root in front has children *)
      assert (Hleaves : Forall (fun t => level t = 0 /\ depth t = 1 /\ children t = []) (f_before fr)).
      { assert (HA : filter (livesOn 1) (allEntries (rev (f_before fr))) = []).
        { set (A := preF [] [] (rev (f_before fr)) (plug fr (t :: r) :: f_after fr)).
          assert (EA : positions f = A ++ TP (mk (f_before fr) (plug fr (t :: r) :: f_after fr) [] 0)).
          { rewrite Ef. unfold positions, A. rewrite preF_app, !app_nil_r, rev_involutive. f_equal.
            unfold TP; cbn [above before after fut]. now rewrite app_nil_r. }
          assert (EB : filter (lives 1) (TP (mk (f_before fr) (plug fr (t :: r) :: f_after fr) [] 0)) = TL 1 (mk [] (t :: r) [fr] 0)).
          { rewrite TP_cons. cbn [filter]. 
            change (lives 1 (mk (f_before fr) (plug fr (t :: r) :: f_after fr) [] 0)) with (livesOn 1 (plug fr (t :: r))).
            rewrite livesOn_false_high by (cbn; lia).
            pose proof (TP_child (f_before fr) (plug fr (t :: r)) (f_after fr) [] 0 0) as EC.
            rewrite frameOf_plug in EC |- *. cbn [plug children] in EC |- *.
            unfold TL. now rewrite EC. }
          assert (EL : allL 1 f = filter (lives 1) A ++ allL 1 f).
          { rewrite <- HT at 2. rewrite <- EB. unfold allL. now rewrite EA, filter_app. }
          assert (filter (lives 1) A = []).
          { apply (f_equal (@length _)) in EL. rewrite app_length in EL.
            destruct (filter (lives 1) A); [reflexivity|cbn in EL; lia]. }
          pose proof (filter_lives 1 _ _ (preF_entries (rev (f_before fr)) [] [] (plug fr (t :: r) :: f_after fr))) as E.
          fold A in E. rewrite H in E. now destruct (filter (livesOn 1) _). }
        destruct Ho' as (_ & Hb & _). cbn [before] in Hb. rewrite Forall_forall in Hb |- *.
        intros q Hq. specialize (Hb q Hq).
        assert (Hin : forall y, In y (subtree q) -> In y (allEntries f)).
        { intros y Hy. rewrite Ef. unfold allEntries. rewrite flat_map_app. apply in_or_app. left.
          apply in_flat_map. exists q. split; [now apply -> in_rev|exact Hy]. }
        destruct Hp as [_ Hp]. rewrite Forall_forall in Hp.
        assert (Hdq : depth q = 1) by (apply Hp, Hin; destruct q; now left).
        spl; auto; [now apply consistent_level in Hb|].
        destruct q as [vq lq dq [|cq csq]]; [reflexivity|exfalso]. cbn [depth] in Hdq. subst dq.
        inversion Hb; subst. inversion H5; subst.
        assert (Hcq : depth cq = 1).
        { apply Hp, Hin. cbn [subtree flat_map]. right. apply in_or_app. left. destruct cq; now left. }
        assert (Hi : In cq (filter (livesOn 1) (allEntries (rev (f_before fr))))).
        { apply filter_In. split.
          - apply in_flat_map. exists (Node vq 0 1 (cq :: csq)). split; [now apply -> in_rev|].
            cbn [subtree flat_map]. right. apply in_or_app. left. destruct cq; now left.
          - apply livesOn_true; rewrite (consistent_level _ _ H1); lia. }
        rewrite HA in Hi. destruct Hi. }
      assert (Elt : level t = 1) by (exact (consistent_level _ _ (over_focus _ _ _ _ _ _ _ Ho))).
      assert (Hup : forall n, 1 <= n -> while n (fun i => andb' (not' (isRoot i)) (isFirstSibling i)) moveToParent (mk [] (t :: r) [fr] 0)
                = Some (mk (f_before fr) (plug fr (t :: r) :: f_after fr) [] 0)).
      { intros n Hn. destruct n; [lia|]. cbn [while]. unfold isRoot at 1; cbn [entry after bind]. rewrite Elt.
        cbn [Nat.eqb not' negb bind andb']. rewrite firstSibling_eq. cbn [isLast1 bind].
        rewrite (parent_up f 1) by exact Ho. rewrite Hd1. cbn [bind rev app Nat.sub].
        apply while_false. unfold isRoot; cbn [entry after bind plug level]. rewrite Elf. reflexivity. }
      assert (Hlast : forall n, 1 <= n -> moveToLastOnLevel n 0 (mk [] (t :: r) [fr] 0) = Some (mk (rev g) [x] [] 0)).
      { intros n Hn. unfold moveToLastOnLevel, stepBackFromEnd, atEnd at 1; cbn [after bind].
        unfold moveUpToLevel, atEnd at 1; cbn [after].
        assert (Eu : while n (fun i => do l <- currentLevel i ;; Some (0 <? l)) moveToParent (mk [] (t :: r) [fr] 0)
             = Some (mk (f_before fr) (plug fr (t :: r) :: f_after fr) [] 0)).
        { destruct n; [lia|]. cbn [while]. unfold currentLevel at 1; cbn [entry after bind counter]. rewrite Elt.
          cbn [Nat.add Nat.ltb Nat.leb]. rewrite (parent_up f 1) by exact Ho. rewrite Hd1. cbn [bind rev app Nat.sub].
          apply while_false. unfold currentLevel; cbn [entry after bind plug level counter]. rewrite Elf. reflexivity. }
        rewrite Eu. cbn [bind above before after]. apply lastOnLevel0; [|reflexivity].
        rewrite <- Ef. reflexivity. }
      assert (Hhas : exists N, forall n, N <= n -> 
         (do j <- while n (fun i => andb' (not' (isRoot i)) (isFirstSibling i)) moveToParent (mk [] (t :: r) [fr] 0) ;;
          do first <- isFirstSibling j ;;
          if first then Some false
          else match n with
               | 0 => None
               | S n' => do j1 <- moveToPreviousMultiLevel n' n j ;;
                        do j2 <- moveDownToLevelEnd n 1 j1 ;;
                        do l <- currentLevel j2 ;;
                        Some (l =? 1)
               end) = Some false).
      { destruct (f_before fr) as [|p pb] eqn:Eb.
        - exists 1. intros n Hn. rewrite Hup by exact Hn. cbn [bind]. rewrite firstSibling_eq. reflexivity.
        - inversion Hleaves as [|? ? (E1 & E2 & E3) HL]; subst.
          destruct (downEnd_leaves pb p (plug fr (t :: r) :: f_after fr) E1 E2 E3 HL) as (jj & [N HN] & Ejj).
          exists (S N). intros n Hn. rewrite Hup by lia. cbn [bind]. rewrite firstSibling_eq. cbn [isLast1 bind].
          destruct n; [lia|]. rewrite prevMulti_inner by (auto). cbn [bind].
          rewrite HN by lia. cbn [bind]. rewrite Ejj. reflexivity. }
      destruct Hhas as [N HN]. exists 0. exists (S N). intros n Hn. specialize (HN n ltac:(lia)).
      unfold decrement. destruct n as [|n]; [lia|]. cbn [moveToPreviousMultiLevel].
      unfold atEnd at 1; cbn [after]. rewrite firstSibling_eq. cbn [bind isLast1 negb].
      unfold currentLevel at 1 3; cbn [entry after bind counter]. rewrite Elt, Nat.add_0_r. cbn [bind].
      rewrite HN. cbn [bind Nat.ltb Nat.leb Nat.sub]. apply Hlast. lia. }
  unfold recordedPosition. cbn [entries_]. fold f.
  destruct Hd as [c' Hd]. eapply returns_bind; [exact He|]. eapply returns_bind; [exact Hd|].
  exists 0. intros n _. cbn [entry after bind]. now rewrite <- Hpl.
Qed.

(** * Building *)
Lemma nth_split_skip {A} (l : list A) k x : nth_error l k = Some x -> l = firstn k l ++ x :: skipn (S k) l.
Proof.
  revert k. induction l as [|y l IH]; intros [|k] H; try discriminate; cbn in *.
  - now inversion H.
  - f_equal. now apply IH.
Qed.
Lemma updateAt_some p g : forall (f : list T) t, entryAt p f = Some t -> exists f', updateAt p g f = Some f'.
Proof.
  induction p as [|k p IH]; intros f t H; [discriminate|].
  cbn [entryAt updateAt] in *. destruct (nth_error f k) as [x|]; [|discriminate].
  destruct p as [|k' p]; [eauto|]. destruct (IH _ _ H) as [c ->]. cbn. eauto.
Qed.
Lemma updateAt_entry p g : forall (f f' : list T), updateAt p g f = Some f' ->
  exists t, entryAt p f = Some t /\ entryAt p f' = Some (g t).
Proof.
  induction p as [|k p IH]; intros f f' H; [discriminate|].
  cbn [entryAt updateAt] in *. destruct (nth_error f k) as [x|] eqn:E; [|discriminate].
  assert (HL : length (firstn k f) = k).
  { apply firstn_length_le. apply Nat.lt_le_incl. apply nth_error_Some. congruence. }
  destruct p as [|k' p].
  - inversion H; subst. exists x. split; [reflexivity|].
    rewrite nth_error_app2, HL, Nat.sub_diag by lia. reflexivity.
  - destruct (updateAt (k' :: p) g (children x)) as [c|] eqn:E2; [|discriminate].
    cbn [bind] in H. inversion H; subst. destruct (IH _ _ E2) as (t & H1 & H2).
    exists t. split; [exact H1|]. rewrite nth_error_app2, HL, Nat.sub_diag by lia. exact H2.
Qed.
Lemma entryAt_in p : forall (f : list T) t, entryAt p f = Some t -> In t (allEntries f).
Proof.
  induction p as [|k p IH]; intros f t H; [discriminate|].
  cbn [entryAt] in H. destruct (nth_error f k) as [x|] eqn:E; [|discriminate].
  apply nth_error_In in E. apply in_flat_map. exists x. split; [exact E|].
  destruct p as [|k' p]; [inversion H; subst; destruct t; now left|].
  destruct x as [v l d c]. cbn [subtree]. right. exact (IH _ _ H).
Qed.
Lemma updateAt_consistent p g : forall l (f f' : list T) t, Forall (consistent l) f ->
  entryAt p f = Some t -> (forall l, consistent l t -> consistent l (g t)) ->
  updateAt p g f = Some f' -> Forall (consistent l) f'.
Proof.
  induction p as [|k p IH]; intros l f f' t Hf Ht Hg H; [discriminate|].
  cbn [entryAt updateAt] in *. destruct (nth_error f k) as [x|] eqn:E; [|discriminate].
  rewrite (nth_split_skip _ _ _ E) in Hf. apply Forall_app in Hf. destruct Hf as [Hf1 Hf2].
  inversion Hf2; subst. destruct p as [|k' p].
  - inversion H; inversion Ht; subst. apply Forall_app. split; auto.
  - destruct (updateAt (k' :: p) g (children x)) as [c|] eqn:E2; [|discriminate].
    cbn [bind] in H. inversion H; subst. apply Forall_app. split; auto. constructor; auto.
    destruct x as [v l0 d c0]. inversion H2; subst. cbn [data level depth]. constructor; auto.
    eapply IH; eauto.
Qed.
Lemma updateAt_Forall (Q : T -> Prop) p g : (forall v l d c c', Q (Node v l d c) -> Q (Node v l d c')) ->
  forall (f f' : list T) t, Forall Q (allEntries f) -> entryAt p f = Some t ->
  (Forall Q (subtree t) -> Forall Q (subtree (g t))) -> updateAt p g f = Some f' ->
  Forall Q (allEntries f').
Proof.
  intros HQ. induction p as [|k p IH]; intros f f' t Hf Ht Hg H; [discriminate|].
  cbn [entryAt updateAt] in *. destruct (nth_error f k) as [x|] eqn:E; [|discriminate].
  rewrite (nth_split_skip _ _ _ E) in Hf. unfold allEntries in Hf. rewrite flat_map_app in Hf.
  cbn [flat_map] in Hf. rewrite !Forall_app in Hf. destruct Hf as (Hf1 & Hf2 & Hf3).
  destruct p as [|k' p].
  - inversion H; inversion Ht; subst. unfold allEntries. rewrite flat_map_app. cbn [flat_map].
    rewrite !Forall_app. auto.
  - destruct (updateAt (k' :: p) g (children x)) as [c|] eqn:E2; [|discriminate].
    cbn [bind] in H. inversion H; subst. unfold allEntries. rewrite flat_map_app. cbn [flat_map].
    rewrite !Forall_app. spl; auto.
    destruct x as [v l d c0]. cbn [subtree data level depth children] in *. inversion Hf2; subst.
    constructor; [eapply HQ; eassumption|]. eapply IH; eauto.
Qed.
(** Every entry is still there, up to its children. *)
Definition kept (a b : list T) := forall x, In x a -> exists y, In y b /\ data y = data x /\ level y = level x /\ depth y = depth x.
Lemma kept_refl a : kept a a.
Proof. intros x Hx. exists x. auto. Qed.
Lemma kept_app a b a' b' : kept a a' -> kept b b' -> kept (a ++ b) (a' ++ b').
Proof.
  intros H1 H2 x Hx. apply in_app_or in Hx. destruct Hx as [Hx|Hx];
    [destruct (H1 x Hx) as (y & Hy & R)|destruct (H2 x Hx) as (y & Hy & R)]; exists y; split; auto;
    apply in_or_app; auto.
Qed.
Lemma updateAt_kept p g : forall (f f' : list T) t, entryAt p f = Some t ->
  kept (subtree t) (subtree (g t)) -> updateAt p g f = Some f' -> kept (allEntries f) (allEntries f').
Proof.
  induction p as [|k p IH]; intros f f' t Ht Hg H; [discriminate|].
  cbn [entryAt updateAt] in *. destruct (nth_error f k) as [x|] eqn:E; [|discriminate].
  rewrite (nth_split_skip _ _ _ E) at 1. destruct p as [|k' p].
  - inversion H; inversion Ht; subst. unfold allEntries. rewrite !flat_map_app. cbn [flat_map].
    repeat apply kept_app; auto using kept_refl.
  - destruct (updateAt (k' :: p) g (children x)) as [c|] eqn:E2; [|discriminate].
    cbn [bind] in H. inversion H; subst. unfold allEntries. rewrite !flat_map_app. cbn [flat_map].
    repeat apply kept_app; auto using kept_refl.
    destruct x as [v l d c0]. cbn [subtree data level depth children] in *.
    intros y [<-|Hy]; [exists (Node v l d c); cbn; auto|].
    destruct (IH _ _ _ Ht Hg E2 y Hy) as (z & Hz & R). exists z. split; [now right|exact R].
Qed.

Lemma subtree_entries (t : T) : subtree t = t :: allEntries (children t).
Proof. now destruct t. Qed.
Lemma subtree_new l (vs : list V) : flat_map subtree (map (newEntry l) vs) = map (newEntry l) vs.
Proof. induction vs as [|v vs IH]; [reflexivity|]. cbn [map flat_map]. now rewrite IH. Qed.
Lemma subtree_withChildren vs (t : T) : subtree (withChildren vs t) =
  withChildren vs t :: allEntries (children t) ++ map (newEntry (level t + depth t)) vs.
Proof.
  rewrite subtree_entries. f_equal. unfold withChildren, allEntries; cbn [children].
  now rewrite flat_map_app, subtree_new.
Qed.
Lemma consistent_new l (v : V) : consistent l (newEntry l v).
Proof. constructor; auto. Qed.
Lemma consistent_withChildren vs (t : T) l : consistent l t -> consistent l (withChildren vs t).
Proof.
  intros H. inversion H; subst. unfold withChildren; cbn [data level depth children]. constructor; auto.
  apply Forall_app. split; auto. apply Forall_map, Forall_forall. intros v' _. apply consistent_new.
Qed.
Lemma addChildren_inv p vs (lt lt' : LevelTree V) : addChildren p vs lt = Some lt' ->
  exists t t' c r, entryAt p (entries_ lt) = Some t /\
    updateAt p (withChildren vs) (entries_ lt) = Some (entries_ lt') /\
    t' = withChildren vs t /\ entryAt p (entries_ lt') = Some t' /\ rev (children t') = c :: r /\
    maxLevel_ lt' = max (depth c + level c) (maxLevel_ lt).
Proof.
  unfold addChildren. intros H. destruct (entryAt p (entries_ lt)) as [t|] eqn:E; [|discriminate].
  cbn [bind] in H. destruct (length (children (withChildren vs t)) =? 0); [discriminate|].
  destruct (updateAt p (withChildren vs) (entries_ lt)) as [f|] eqn:E2; [|discriminate]. cbn [bind] in H.
  destruct (updateAt_entry _ _ _ _ E2) as (t2 & Ht2 & Ht3). rewrite E in Ht2. inversion Ht2; subst t2.
  rewrite Ht3 in H. cbn [bind] in H. destruct (rev (children (withChildren vs t))) as [|c r] eqn:Er; [discriminate|].
  inversion H; subst; cbn [entries_ maxLevel_]. exists t, (withChildren vs t), c, r. spl; auto.
Qed.

Lemma fill_consistent lev : forall (t : T) l, consistent l t -> consistent l (fillTree lev t).
Proof.
  induction t as [v l0 d c IH] using Tree_ind'. intros l H.
  pose proof (consistent_children _ _ H) as H5. pose proof (consistent_depth _ _ H) as H4.
  pose proof (consistent_level _ _ H) as El. cbn [depth children level] in *. subst l0. rename l into l0.
  destruct c as [|x c].
  - cbn [fillTree]. constructor; [|constructor]. destruct (Nat.ltb_spec (l0 + d - 1) lev); lia.
  - change (fillTree lev (Node v l0 d (x :: c))) with (Node v l0 d (map (fillTree lev) (x :: c))).
    constructor; auto. apply Forall_map. rewrite Forall_forall in IH, H5 |- *. intros y Hy. apply IH; auto.
Qed.
Definition below (m : nat) (t : T) := level t + depth t <= m.
Lemma below_up m m' (l : list T) : m <= m' -> Forall (below m) l -> Forall (below m') l.
Proof. intros H. apply Forall_impl. unfold below. intros; lia. Qed.

Lemma addChildren_consistent p vs (lt lt' : LevelTree V) : addChildren p vs lt = Some lt' ->
  consistentForest (entries_ lt) /\ Forall (below (maxLevel_ lt)) (allEntries (entries_ lt)) ->
  consistentForest (entries_ lt') /\ Forall (below (maxLevel_ lt')) (allEntries (entries_ lt')).
Proof.
  intros H [Hc Hb].
  destruct (addChildren_inv _ _ _ _ H) as (t & t' & c & r & Ht & Hu & Et' & Ht' & Er & Em). split.
  - eapply updateAt_consistent; eauto. intros l. apply consistent_withChildren.
  - assert (Hc' : consistentForest (entries_ lt')) by (eapply updateAt_consistent; eauto; intros l; apply consistent_withChildren).
    assert (Hle : maxLevel_ lt <= maxLevel_ lt') by lia.
    eapply updateAt_Forall; [|exact (below_up _ _ _ Hle Hb)|exact Ht| |exact Hu]; [unfold below; cbn; auto|].
    rewrite subtree_withChildren, (subtree_entries t). intros HF. inversion HF as [|? ? H1 H2]; subst.
    constructor; [exact H1|]. apply Forall_app. split; [exact H2|].
    apply Forall_map, Forall_forall. intros v Hv. unfold below; cbn [newEntry level depth].
    assert (In c (map (newEntry (level t + depth t)) vs)).
    { unfold withChildren in Er; cbn [children] in Er. rewrite rev_app_distr in Er.
      assert (Hi : In c (rev (map (newEntry (level t + depth t)) vs))).
      { destruct (rev (map (newEntry (level t + depth t)) vs)) eqn:Ev.
        - apply (f_equal (@rev _)) in Ev. rewrite rev_involutive in Ev. destruct vs; [destruct Hv|discriminate].
        - cbn in Er. inversion Er; subst. now left. }
      now apply in_rev. }
    apply in_map_iff in H0. destruct H0 as (w & <- & _). cbn [newEntry level depth] in Em. lia.
Qed.

Lemma subtree_depth : forall (y x : T) n, consistent n y -> In x (subtree y) -> 1 <= depth x.
Proof.
  induction y as [v l d c IH] using Tree_ind'. intros x n H.
  pose proof (consistent_children _ _ H) as H5. pose proof (consistent_depth _ _ H) as H4. cbn [depth children] in *.
  cbn [subtree]. intros [<-|Hx]; [exact H4|]. apply in_flat_map in Hx. destruct Hx as (z & Hz & Hx).
  rewrite Forall_forall in IH, H5. eapply IH; eauto.
Qed.
Lemma entries_depth (f : list T) x : consistentForest f -> In x (allEntries f) -> 1 <= depth x.
Proof.
  intros Hc Hx. apply in_flat_map in Hx. destruct Hx as (y & Hy & Hx). unfold consistentForest in Hc.
  rewrite Forall_forall in Hc. eapply subtree_depth; eauto.
Qed.
Lemma below_lower m (f : list T) l : consistentForest f -> Forall (below (S m)) (allEntries f) ->
  allL m f = [] -> l = allEntries f -> Forall (below m) l.
Proof.
  intros Hc Hb Ha ->. rewrite Forall_forall in Hb |- *. intros x Hx. specialize (Hb x Hx).
  unfold below in *. destruct (Nat.eq_dec (level x + depth x) (S m)) as [E|]; [exfalso|lia].
  assert (Hd : 1 <= depth x).
  { eapply entries_depth; eauto. }
  pose proof (filter_lives m _ _ (preF_entries f [] [] [])) as E1.
  unfold allL, positions in Ha. rewrite Ha in E1.
  assert (Hi : In x (filter (livesOn m) (allEntries f))) by (apply filter_In; split; [exact Hx|apply livesOn_true; lia]).
  destruct (filter (livesOn m) (allEntries f)); [destruct Hi|discriminate].
Qed.
Lemma lowerMax_returns (f : list T) : consistentForest f -> f <> [] -> forall m,
  Forall (below m) (allEntries f) ->
  exists m', returns (fun n => lowerMaxLevel n n f m) (S m') /\ S m' <= m /\
    Forall (below (S m')) (allEntries f) /\ allL m' f <> [].
Proof.
  intros Hc Hne m Hb. destruct f as [|x f0]; [congruence|]. set (f := x :: f0) in *.
  pose proof (over_first f x f0 Hc eq_refl) as Hx.
  assert (Hdx : 1 <= depth x) by (eapply consistent_depth; eapply over_focus; exact Hx).
  cut (exists m', (exists N, forall k n, N <= k -> N <= n -> lowerMaxLevel k n f m = Some (S m')) /\ S m' <= m /\
    Forall (below (S m')) (allEntries f) /\ allL m' f <> []).
  { intros (m' & [N HN] & R). exists m'. split; [|exact R]. exists N. intros n Hn. now apply HN. }
  assert (Hm : 1 <= m).
  { rewrite Forall_forall in Hb. specialize (Hb x). unfold below in Hb.
    assert (In x (allEntries f)) by (unfold f, allEntries; cbn [flat_map]; apply in_or_app; left; destruct x; now left).
    specialize (Hb H). lia. }
  destruct m as [|m]; [lia|]. clear Hm. revert Hb.
  induction m as [|m IH]; intros Hb.
  - exists 0. split; [|spl; auto].
    + exists 0. intros k n _ _. destruct k; cbn [lowerMaxLevel]; unfold iteratorAt, f; cbn [length Nat.ltb Nat.leb bind];
        unfold moveDownToLevelBegin; rewrite while_false; try reflexivity;
        unfold atEnd; cbn [firstn skipn rev after]; unfold currentLevel; cbn [entry after bind counter];
        rewrite (consistent_level _ _ (over_focus _ _ _ _ _ _ _ Hx)); reflexivity.
    + apply (level_nonempty f _ _ _ _ _ _ Hx). lia.
  - destruct (downBegin f (S m) 0 [] x f0 [] 0 Hx ltac:(lia) ltac:(lia)) as (l' & j & [N HN] & Hoj & HT & Hf).
    assert (EA : TL (S m) j = allL (S m) f).
    { rewrite HT. unfold TL, allL. now rewrite positions_first. }
    destruct (after j) as [|tj rj] eqn:Ej.
    + destruct Hf as (HTj & _).
      assert (Hz : allL (S m) f = []) by (rewrite <- EA; unfold TL; now rewrite HTj).
      destruct (IH (below_lower _ _ _ Hc Hb Hz eq_refl)) as (m' & [M HM] & Hle & R).
      exists m'. split; [|split; [lia|exact R]].
      exists (S (max N M)). intros k n Hk Hn. destruct k as [|k]; [lia|]. cbn [lowerMaxLevel].
      replace (S (S m) - 1) with (S m) by lia.
      unfold iteratorAt, f; cbn [length Nat.ltb Nat.leb bind firstn skipn rev]. rewrite HN by lia. cbn [bind].
      unfold atEnd. rewrite Ej. apply HM; lia.
    + exists (S m). split; [|spl; auto].
      * exists N. intros k n _ Hn. 
        destruct k; cbn [lowerMaxLevel]; replace (S (S m) - 1) with (S m) by lia;
          unfold iteratorAt, f; cbn [length Nat.ltb Nat.leb bind firstn skipn rev]; rewrite HN by lia; cbn [bind];
          unfold atEnd; rewrite Ej; reflexivity.
      * destruct j as [b a ab c]. cbn [after] in Ej. subst a. cbn [counter] in Hf.
        apply (level_nonempty f _ _ _ _ _ _ Hoj). lia.
Qed.
Definition cut1 (t : T) : T := Node (data t) (level t) 1 [].
Lemma cut_consistent (t : T) l : consistent l t -> consistent l (cut1 t).
Proof. inversion 1; subst. constructor; auto. Qed.
Lemma updateAt_nonempty p g (f f' : list T) : updateAt p g f = Some f' -> f' <> [].
Proof.
  intros H ->. destruct (updateAt_entry _ _ _ _ H) as (t & _ & H2). destruct p as [|k p]; [discriminate|].
  cbn in H2. now destruct k.
Qed.
Lemma cut_below m (t : T) : (1 <= depth t) -> Forall (below m) (subtree t) -> Forall (below m) (subtree (cut1 t)).
Proof.
  rewrite subtree_entries. intros Hd HF. inversion HF as [|? ? H1 H2]; subst. constructor; [|constructor].
  unfold below, cut1 in *; cbn [level depth] in *. lia.
Qed.
Lemma erase_returns p (lt : LevelTree V) t : entryAt p (entries_ lt) = Some t ->
  consistentForest (entries_ lt) -> Forall (below (maxLevel_ lt)) (allEntries (entries_ lt)) ->
  exists lt', returns (fun n => eraseChilds n p lt) lt' /\
    updateAt p cut1 (entries_ lt) = Some (entries_ lt') /\
    consistentForest (entries_ lt') /\ Forall (below (maxLevel_ lt')) (allEntries (entries_ lt')) /\
    exists m, maxLevel_ lt' = S m /\ allL m (entries_ lt') <> [].
Proof.
  intros Ht Hc Hb. destruct (updateAt_some p cut1 _ _ Ht) as [f' Hf'].
  assert (Hc' : consistentForest f') by (eapply updateAt_consistent; eauto; intros l; apply cut_consistent).
  assert (Hb' : Forall (below (maxLevel_ lt)) (allEntries f')).
  { eapply updateAt_Forall; [|exact Hb|exact Ht| |exact Hf']; [unfold below; cbn; auto|].
    apply cut_below. eapply entries_depth; [exact Hc|]. eapply entryAt_in; eauto. }
  destruct (lowerMax_returns f' Hc' (updateAt_nonempty _ _ _ _ Hf') _ Hb') as (m & [N HN] & Hle & Hb2 & Ha).
  exists {| entries_ := f'; maxLevel_ := S m |}. cbn [entries_ maxLevel_]. spl; auto.
  - exists N. intros n Hn. unfold eraseChilds. change (fun t => Node (data t) (level t) 1 []) with cut1.
    rewrite Hf'. cbn [bind]. rewrite HN by exact Hn. reflexivity.
  - exists m. auto.
Qed.
Lemma erase_entry p (lt lt' : LevelTree V) : returns (fun n => eraseChilds n p lt) lt' ->
  exists t, entryAt p (entries_ lt) = Some t.
Proof.
  intros [N HN]. specialize (HN N (le_n _)). unfold eraseChilds in HN.
  destruct (updateAt p _ (entries_ lt)) as [f|] eqn:E; [|discriminate].
  destruct (updateAt_entry _ _ _ _ E) as (t & H & _). eauto.
Qed.

Lemma built_consistent (lt : LevelTree V) : built lt ->
  consistentForest (entries_ lt) /\ Forall (below (maxLevel_ lt)) (allEntries (entries_ lt)).
Proof.
  induction 1 as [|lt v H [IH1 IH2]|lt p vs lt' H IH E|lt p vs lev lt' t H [IH1 IH2] Ht Ec E|lt lev H [IH1 IH2] Hne|lt p lt' H [IH1 IH2] E].
  - split; constructor.
  - cbn [addRootEntry entries_ maxLevel_]. split.
    + apply Forall_app. split; [exact IH1|]. constructor; [apply consistent_new|constructor].
    + unfold allEntries. rewrite flat_map_app. apply Forall_app. split.
      * eapply below_up; [|exact IH2]. apply Nat.le_max_r.
      * cbn [flat_map newEntry subtree app]. constructor; [|constructor]. unfold below; cbn [level depth]. lia.
  - eapply addChildren_consistent; eauto.
  - unfold addChildrenAtLevel in E. rewrite Ht in E. cbn [bind] in E.
    destruct (Nat.ltb_spec (level t) lev) as [Hl|]; [|discriminate].
    destruct (updateAt p (withDepth (lev - level t)) (entries_ lt)) as [f|] eqn:Eu; [|discriminate].
    cbn [bind] in E.
    (* the parent reaches up to the new children, which may be above maxLevel_ *)
    assert (Hc : consistentForest f).
    { eapply updateAt_consistent; eauto. intros l Hl'. destruct t as [v l0 d c]. cbn in *. subst c.
      inversion Hl'; subst. unfold withDepth; cbn. constructor; [lia|constructor]. }
    destruct (addChildren_inv _ _ _ _ E) as (t1 & t' & c & r & Ht1 & Hu & Et' & Ht' & Er & Em).
    cbn [entries_ maxLevel_] in *.
    destruct (updateAt_entry _ _ _ _ Eu) as (t0 & Ht0 & Ht2). rewrite Ht in Ht0. inversion Ht0; subst t0.
    rewrite Ht1 in Ht2. inversion Ht2; subst t1.
    assert (Hcl : level c = lev).
    { assert (In c (children t')) by (apply in_rev; rewrite Er; now left).
      subst t'. unfold withChildren, withDepth in H0; cbn [children level depth] in H0. rewrite Ec in H0.
      cbn [app] in H0. apply in_map_iff in H0. destruct H0 as (w & <- & _). cbn. lia. }
    assert (Hb : Forall (below (max (depth c + level c) (maxLevel_ lt))) (allEntries f)).
    { eapply updateAt_Forall; [|eapply below_up; [|exact IH2]; apply Nat.le_max_r|exact Ht| |exact Eu];
        [unfold below; cbn; auto|].
      rewrite !subtree_entries. unfold withDepth; cbn [children]. rewrite Ec. intros _.
      constructor; [|constructor]. unfold below; cbn [level depth]. lia. }
    assert (E' : addChildren p vs {| entries_ := f; maxLevel_ := max (depth c + level c) (maxLevel_ lt) |} = Some lt').
    { unfold addChildren in E |- *. cbn [entries_ maxLevel_] in *. rewrite Ht1 in E |- *. cbn [bind] in *.
      destruct (length _ =? 0); [discriminate|]. rewrite Hu in E |- *. cbn [bind] in *. rewrite Ht' in E |- *.
      cbn [bind] in *. rewrite Er in E |- *. rewrite Nat.max_assoc, Nat.max_id. exact E. }
    eapply addChildren_consistent; [exact E'|]. cbn [entries_ maxLevel_]. auto.
  - cbn [fillToLevel entries_ maxLevel_]. split.
    + apply Forall_map. revert IH1. apply Forall_impl. intros t. apply fill_consistent.
    + unfold allEntries in *. rewrite Forall_forall in IH2 |- *. intros x Hx. apply in_flat_map in Hx.
      destruct Hx as (y & Hy & Hx). apply in_map_iff in Hy. destruct Hy as (t & <- & Ht).
      assert (IHt : forall z, In z (subtree t) -> below (maxLevel_ lt) z).
      { intros z Hz. apply IH2. apply in_flat_map. eauto. }
      assert (Hct : exists l, consistent l t).
      { exists 0. unfold consistentForest in IH1. rewrite Forall_forall in IH1. auto. }
      clear IH1 IH2 Ht. revert x Hx IHt Hct. induction t as [v l d c IHc] using Tree_ind'. intros x Hx IHt [l0 Hct].
      pose proof (consistent_children _ _ Hct) as H5. pose proof (consistent_depth _ _ Hct) as H4.
      pose proof (consistent_level _ _ Hct) as El. cbn [depth children level] in *. subst l0. rename l into l0.
      destruct c as [|x0 c].
      * cbn [fillTree subtree flat_map] in Hx. destruct Hx as [<-|[]]. specialize (IHt (Node v l0 d []) (or_introl eq_refl)).
        unfold below in *; cbn [level depth] in *. destruct (Nat.ltb_spec (l0 + d - 1) lev); lia.
      * change (fillTree lev (Node v l0 d (x0 :: c))) with (Node v l0 d (map (fillTree lev) (x0 :: c))) in Hx.
        rewrite subtree_entries in Hx. cbn [children] in Hx. destruct Hx as [<-|Hx].
        -- specialize (IHt _ (or_introl eq_refl)). unfold below in *; cbn [level depth] in *. lia.
        -- unfold allEntries in Hx. apply in_flat_map in Hx. destruct Hx as (y & Hy & Hx).
           apply in_map_iff in Hy. destruct Hy as (u & <- & Hu). rewrite Forall_forall in IHc, H5.
           eapply IHc; eauto. intros z Hz. apply IHt. cbn [subtree]. right. apply in_flat_map. eauto.
  - destruct (erase_entry _ _ _ E) as [t Ht].
    destruct (erase_returns _ _ _ Ht IH1 IH2) as (lt2 & E2 & _ & H1 & H2 & _).
    pose proof (returns_unique _ _ _ E E2) as ->. auto.
Qed.
Lemma plain_built (lt : LevelTree V) : builtPlain lt -> built lt.
Proof. induction 1; econstructor; eassumption. Qed.
Lemma built_plain (lt : LevelTree V) : builtPlain lt -> plainForest (entries_ lt).
Proof.
  intros H. split; [exact (proj1 (built_consistent _ (plain_built _ H)))|].
  induction H as [|lt v H IH|lt p vs lt' H IH E|lt p lt' H IH E].
  - constructor.
  - cbn [addRootEntry entries_]. unfold allEntries. rewrite flat_map_app. apply Forall_app.
    split; [exact IH|]. cbn. constructor; auto.
  - destruct (addChildren_inv _ _ _ _ E) as (t & t' & c & r & Ht & Hu & _).
    eapply updateAt_Forall; [|exact IH|exact Ht| |exact Hu]; [cbn; auto|].
    rewrite subtree_withChildren, (subtree_entries t). intros HF. inversion HF; subst.
    constructor; [assumption|]. apply Forall_app. split; [assumption|]. apply Forall_map, Forall_forall.
    intros; reflexivity.
  - destruct (erase_entry _ _ _ E) as [t Ht].
    destruct (built_consistent _ (plain_built _ H)) as [H1 H2].
    destruct (erase_returns _ _ _ Ht H1 H2) as (lt2 & E2 & Hu & _).
    pose proof (returns_unique _ _ _ E E2) as ->.
    eapply updateAt_Forall; [|exact IH|exact Ht| |exact Hu]; [cbn; auto|].
    intros _. rewrite subtree_entries. constructor; [reflexivity|constructor].
Qed.
Lemma kept_with vs (t : T) : kept (subtree t) (subtree (withChildren vs t)).
Proof.
  rewrite subtree_withChildren, subtree_entries. intros x [<-|Hx].
  - exists (withChildren vs t). cbn. auto.
  - exists x. spl; auto. right. apply in_or_app. now left.
Qed.
Lemma preF_over_gen f : forall g, Forall (fun t => forall l ab b r i, over f l (mk b (t :: r) ab 0) ->
    In i (preT ab b t r) -> exists l', over f l' i) g ->
  forall l ab b i, over f l (mk b g ab 0) -> In i (preF ab b g []) -> exists l', over f l' i.
Proof.
  induction 1 as [|x g Hx Hg IH]; intros l ab b i Ho Hi; [destruct Hi|].
  cbn [preF] in Hi. rewrite app_nil_r in Hi. apply in_app_or in Hi.
  destruct Hi as [Hi|Hi]; [eauto|]. eapply IH; [|exact Hi]. eapply over_next; exact Ho.
Qed.
Lemma preT_over f : forall t l ab b r i, over f l (mk b (t :: r) ab 0) -> In i (preT ab b t r) ->
  exists l', over f l' i.
Proof.
  induction t as [v l0 d c IH] using Tree_ind'. intros l ab b r i Ho. rewrite preT_eq. intros [<-|Hi]; [eauto|].
  cbn [children] in Hi. destruct c as [|x c]; [destruct Hi|].
  pose proof (over_child _ _ _ _ _ _ _ 0 0 Ho ltac:(cbn; lia)) as Hc. cbn [children firstn skipn rev] in Hc.
  eapply preF_over_gen; eassumption.
Qed.
Lemma positions_over (f : list T) i : consistentForest f -> In i (positions f) -> exists l, over f l i.
Proof.
  intros Hc Hi. destruct f as [|x f0]; [destruct Hi|].
  pose proof (over_first (x :: f0) x f0 Hc eq_refl) as Ho.
  eapply preF_over_gen; [|exact Ho|exact Hi]. apply Forall_forall. intros t _. apply preT_over.
Qed.
Lemma plain_top (lt : LevelTree V) : builtPlain lt -> maxLevel_ lt = 0 \/
  exists x, In x (allEntries (entries_ lt)) /\ level x + depth x = maxLevel_ lt.
Proof.
  induction 1 as [|lt v H IH|lt p vs lt' H IH E|lt p lt' H IH E].
  - now left.
  - right. cbn [addRootEntry entries_ maxLevel_]. destruct IH as [->|(x & Hx & E)].
    + exists (newEntry 0 v). split; [|reflexivity]. unfold allEntries. rewrite flat_map_app.
      apply in_or_app. right. now left.
    + exists x. unfold allEntries. rewrite flat_map_app. split; [apply in_or_app; now left|].
      pose proof (entries_depth _ _ (proj1 (built_consistent _ (plain_built _ H))) Hx). lia.
  - right. destruct (addChildren_inv _ _ _ _ E) as (t & t' & c & r & Ht & Hu & -> & Ht' & Er & Em).
    rewrite Em. destruct (Nat.max_spec (depth c + level c) (maxLevel_ lt)) as [[Hlt ->]|[Hle ->]].
    + destruct IH as [E0|(x & Hx & Ex)]; [lia|].
      destruct (updateAt_kept _ _ _ _ _ Ht (kept_with _ _) Hu x Hx) as (y & Hy & _ & E1 & E2).
      exists y. split; [exact Hy|lia].
    + exists c. split; [|lia].
      assert (Hc : In c (children (withChildren vs t))) by (apply in_rev; rewrite Er; now left).
      apply entryAt_in in Ht'. revert Ht'. generalize (withChildren vs t) Hc. clear.
      intros t Hc Ht. unfold allEntries in *. apply in_flat_map in Ht. destruct Ht as (y & Hy & Ht).
      apply in_flat_map. exists y. split; [exact Hy|]. clear Hy. revert Ht.
      induction y as [v l d ch IH] using Tree_ind'. cbn [subtree]. intros [<-|Ht].
      * right. apply in_flat_map. exists c. split; [exact Hc|]. destruct c; now left.
      * right. apply in_flat_map in Ht. destruct Ht as (z & Hz & Ht). apply in_flat_map.
        exists z. rewrite Forall_forall in IH. auto.
  - right. destruct (erase_entry _ _ _ E) as [t Ht].
    destruct (built_consistent _ (plain_built _ H)) as [H1 H2].
    destruct (erase_returns _ _ _ Ht H1 H2) as (lt2 & E2 & Hu & Hc2 & Hb2 & m & Em & Ha).
    pose proof (returns_unique _ _ _ E E2) as ->.
    pose proof (filter_lives m _ _ (preF_entries (entries_ lt2) [] [] [])) as E1.
    unfold allL, positions in Ha. destruct (filter (lives m) _) as [|i0 R]; [congruence|].
    destruct (filter (livesOn m) (allEntries (entries_ lt2))) as [|x xs] eqn:Ex; [discriminate|].
    assert (Hi : In x (filter (livesOn m) (allEntries (entries_ lt2)))) by (rewrite Ex; now left).
    apply filter_In in Hi. destruct Hi as [Hi Hlv]. apply livesOn_iff in Hlv.
    exists x. split; [exact Hi|]. rewrite Forall_forall in Hb2. specialize (Hb2 x Hi). unfold below in Hb2. lia.
Qed.
Lemma plain_maxLevel (lt : LevelTree V) L : builtPlain lt ->
  (L < maxLevel_ lt <-> onLevel L (entries_ lt) <> []).
Proof.
  intros H. destruct (built_consistent _ (plain_built _ H)) as [Hc Hb]. split.
  - intros HL. destruct (plain_top _ H) as [E|(x & Hx & Ex)]; [lia|].
    assert (Hi : exists i, In i (positions (entries_ lt)) /\ entry i = Some x).
    { assert (In (Some x) (map entry (positions (entries_ lt)))).
      { unfold positions. rewrite preF_entries. now apply in_map. }
      apply in_map_iff in H0. destruct H0 as (i & E & Hi). eauto. }
    destruct Hi as (i & Hi & Ei). destruct (positions_over _ _ Hc Hi) as [l Ho].
    destruct i as [b [|t r] ab c]; [discriminate|]. cbn in Ei. inversion Ei; subst t.
    pose proof (consistent_level _ _ (over_focus _ _ _ _ _ _ _ Ho)) as El.
    pose proof (level_nonempty _ _ _ _ _ _ _ Ho L ltac:(lia)) as Hne.
    pose proof (filter_lives L _ _ (preF_entries (entries_ lt) [] [] [])) as E1.
    unfold allL, positions in Hne. unfold onLevel.
    destruct (filter (livesOn L) (allEntries (entries_ lt))); [|discriminate].
    destruct (filter (lives L) _); [congruence|discriminate].
  - intros Hne. destruct (onLevel L (entries_ lt)) as [|x xs] eqn:Ex; [congruence|].
    assert (Hi : In x (onLevel L (entries_ lt))) by (rewrite Ex; now left).
    apply filter_In in Hi. destruct Hi as [Hi Hlv]. apply livesOn_iff in Hlv.
    rewrite Forall_forall in Hb. specialize (Hb x Hi). unfold below in Hb. lia.
Qed.
Lemma onLevel_allL L (f : list T) : onLevel L f <> [] -> allL L f <> [].
Proof.
  intros H E. pose proof (filter_lives L _ _ (preF_entries f [] [] [])) as E1.
  unfold allL, positions in E. rewrite E in E1. unfold onLevel in H.
  destruct (filter (livesOn L) (allEntries f)); [congruence|discriminate].
Qed.
Lemma single_level_built (lt : LevelTree V) L : built lt -> onLevel L (entries_ lt) <> [] ->
  returns (fun n => visit n (SingleLevel L) (entries_ lt)) (map data (onLevel L (entries_ lt))).
Proof. intros H Hne. apply single_level_visit; [apply (built_consistent _ H)|now apply onLevel_allL]. Qed.

(** * Adding entities *)
Lemma plain_addRoot (f : list T) v : plainForest f -> plainForest (f ++ [newEntry 0 v]).
Proof.
  intros [H1 H2]. split; [apply Forall_app; split; [exact H1|constructor; [apply consistent_new|constructor]]|].
  unfold allEntries. rewrite flat_map_app. apply Forall_app. split; [exact H2|]. cbn. constructor; auto.
Qed.
Lemma addEntity_root (m : Method) v (lt : LevelTree V) : builtPlain lt -> (forall L, m <> SingleLevel (S L)) ->
  returns (fun n => addEntity n m v lt) (addRootEntry v lt, [length (entries_ lt)]) /\
  entryAt [length (entries_ lt)] (entries_ (addRootEntry v lt)) = Some (newEntry 0 v).
Proof.
  intros Hb Hm. split; [|apply entryAt_root].
  assert (H : returns (fun n => recordedPosition n m (addRootEntry v lt)) [length (entries_ lt)]).
  { destruct m as [[|L]| | |].
    - exists 0. intros n _. apply recorded_simple. auto.
    - exfalso. exact (Hm L eq_refl).
    - apply recorded_all. apply plain_addRoot. now apply built_plain.
    - exists 0. intros n _. apply recorded_simple. auto.
    - exists 0. intros n _. apply recorded_simple. auto. }
  unfold addEntity. eapply returns_bind; [exact H|]. apply returns_ret.
Qed.
Lemma skipn_nth {A} (l : list A) : forall i x, nth_error l i = Some x -> skipn i l = x :: skipn (S i) l.
Proof.
  induction l as [|y l IH]; intros [|i] x H; try discriminate; [now inversion H|]. cbn in H.
  cbn [skipn]. rewrite (IH _ _ H). reflexivity.
Qed.
Lemma positionsFrom_some p (vs : list V) : forall n i, i + n <= length vs ->
  exists ps, positionsFrom p vs i n = Some ps /\ map fst ps = firstn n (skipn i vs) /\
    map snd ps = map (fun k => p ++ [k]) (seq i n) /\
    forall v q, In (v, q) ps -> exists k, q = p ++ [k] /\ nth_error vs k = Some v.
Proof.
  induction n as [|n IH]; intros i Hi.
  - exists []. cbn. spl; auto. intros v q [].
  - cbn [positionsFrom]. destruct (nth_error vs i) as [v|] eqn:E; [|apply nth_error_None in E; lia].
    destruct (IH (S i) ltac:(lia)) as (ps & -> & H1 & H2 & H3). cbn [bind].
    exists ((v, p ++ [i]) :: ps). cbn [map fst snd seq]. spl; auto.
    + rewrite (skipn_nth _ _ _ E). cbn [firstn]. now rewrite H1.
    + now rewrite H2.
    + intros w q [E'|Hq]; [inversion E'; subst; eauto|eauto].
Qed.
Lemma positionsFrom_none p (vs : list V) : forall n i, length vs < i + n -> i <= length vs ->
  positionsFrom p vs i n = None.
Proof.
  induction n as [|n IH]; intros i H1 H2; [lia|]. cbn [positionsFrom].
  destruct (nth_error vs i) as [v|] eqn:E; [|reflexivity].
  rewrite IH; [reflexivity|lia|]. assert (i < length vs) by (apply nth_error_Some; congruence). lia.
Qed.
Lemma entryAt_app p : forall (f : list T) t k, entryAt p f = Some t ->
  entryAt (p ++ [k]) f = nth_error (children t) k.
Proof.
  induction p as [|k0 p IH]; intros f t k H; [discriminate|].
  cbn [app entryAt] in *. destruct (nth_error f k0) as [x|]; [|discriminate].
  destruct p as [|k' p].
  - inversion H; subst. cbn [app entryAt]. now destruct (nth_error (children t) k).
  - cbn [app]. apply (IH _ _ k) in H. cbn [app] in H. exact H.
Qed.
Lemma addSub_first p vs (lt : LevelTree V) t : entryAt p (entries_ lt) = Some t -> children t = [] -> vs <> [] ->
  exists lt' ps, addSubEntities p vs lt = Some (lt', ps) /\ addChildren p vs lt = Some lt' /\
    map fst ps = vs /\ NoDup (map snd ps) /\
    forall v q, In (v, q) ps -> exists e, entryAt q (entries_ lt') = Some e /\ data e = v.
Proof.
  intros Ht Ec Hv.
  assert (Ek : children (withChildren vs t) = map (newEntry (level t + depth t)) vs).
  { unfold withChildren; cbn [children]. now rewrite Ec. }
  assert (HA : exists lt', addChildren p vs lt = Some lt').
  { unfold addChildren. rewrite Ht. cbn [bind]. rewrite Ek, map_length.
    destruct (Nat.eqb_spec (length vs) 0) as [E|_]; [destruct vs; [congruence|discriminate]|].
    destruct (updateAt_some p (withChildren vs) _ _ Ht) as [f' Hf']. rewrite Hf'. cbn [bind].
    destruct (updateAt_entry _ _ _ _ Hf') as (t2 & Ht2 & Ht3). rewrite Ht in Ht2. inversion Ht2; subst t2.
    rewrite Ht3. cbn [bind]. rewrite Ek. destruct (rev (map _ vs)) as [|c r] eqn:Er; [|eauto].
    apply (f_equal (@rev _)) in Er. rewrite rev_involutive in Er. destruct vs; [congruence|discriminate]. }
  destruct HA as [lt' HA]. destruct (addChildren_inv _ _ _ _ HA) as (t0 & t' & c & r & Ht0 & Hu & Et' & Ht' & _).
  rewrite Ht in Ht0. inversion Ht0; subst t0.
  destruct (positionsFrom_some p vs (length vs) 0 ltac:(lia)) as (ps & Hps & H1 & H2 & H3).
  exists lt', ps. spl; auto.
  - unfold addSubEntities. rewrite HA. cbn [bind]. rewrite Ht'. cbn [bind]. subst t'. rewrite Ek, map_length, Hps.
    reflexivity.
  - rewrite H1. cbn [skipn]. apply firstn_all.
  - rewrite H2. apply FinFun.Injective_map_NoDup; [|apply seq_NoDup].
    intros a b E. apply app_inj_tail in E. apply E.
  - intros v q Hq. destruct (H3 v q Hq) as (k & -> & Hk). rewrite (entryAt_app _ _ _ k Ht'). subst t'.
    rewrite Ek. rewrite (map_nth_error _ _ _ Hk). exists (newEntry (level t + depth t) v). auto.
Qed.
Lemma addSub_again p vs (lt : LevelTree V) t : entryAt p (entries_ lt) = Some t -> children t <> [] ->
  addSubEntities p vs lt = None.
Proof.
  intros Ht Hc. unfold addSubEntities. destruct (addChildren p vs lt) as [lt'|] eqn:HA; [|reflexivity].
  cbn [bind]. destruct (addChildren_inv _ _ _ _ HA) as (t0 & t' & c & r & Ht0 & Hu & Et' & Ht' & _).
  rewrite Ht in Ht0. inversion Ht0; subst t0 t'. rewrite Ht'. cbn [bind].
  rewrite positionsFrom_none; [reflexivity| |lia].
  unfold withChildren; cbn [children]. rewrite app_length, map_length.
  destruct (children t); [congruence|]. cbn. lia.
Qed.

(** * All levels together *)
Lemma levels_permutation (n : nat) : forall (l : list T),
  Forall (fun t => depth t = 1 /\ level t < n) l ->
  Permutation (flat_map (fun k => filter (livesOn k) l) (seq 0 n)) l.
Proof.
  induction l as [|x l IH]; intros H.
  - induction (seq 0 n); [constructor|]. exact IHl.
  - inversion H as [|? ? [Hd Hl] H']; subst. specialize (IH H').
    cut (Permutation (flat_map (fun k => filter (livesOn k) (x :: l)) (seq 0 n))
           (x :: flat_map (fun k => filter (livesOn k) l) (seq 0 n))).
    { intros HP. rewrite HP. now constructor. }
    assert (Hm : forall a b, (a <= level x < a + b ->
        Permutation (flat_map (fun k => filter (livesOn k) (x :: l)) (seq a b))
           (x :: flat_map (fun k => filter (livesOn k) l) (seq a b))) /\
        (~ (a <= level x < a + b) -> flat_map (fun k => filter (livesOn k) (x :: l)) (seq a b) =
           flat_map (fun k => filter (livesOn k) l) (seq a b))).
    { intros a b. revert a. induction b as [|b IHb]; intros a.
      - split; [lia|reflexivity].
      - destruct (IHb (S a)) as [I1 I2]. cbn [seq].
        set (F := fun k => filter (livesOn k) (x :: l)) in *. set (G := fun k => filter (livesOn k) l) in *.
        assert (EF : F a = if livesOn a x then x :: G a else G a) by reflexivity.
        cbn [flat_map]. rewrite EF. clear EF. destruct (livesOn a x) eqn:E.
        + apply livesOn_iff in E. split; [intros _|intros Hn; exfalso; apply Hn; lia].
          cbn [app]. constructor. rewrite I2 by lia. reflexivity.
        + assert (Hne : level x <> a).
          { intros Ea. rewrite livesOn_true in E by lia. discriminate. }
          split; intros Hr.
          * rewrite I1 by lia. symmetry. apply Permutation_middle.
          * rewrite I2 by lia. reflexivity. }
    apply Hm. lia.
Qed.
Lemma byLevels_all n (f : list T) : plainForest f -> Forall (fun t => level t < n) (allEntries f) ->
  Permutation (byLevels n f) (allEntries f).
Proof.
  intros [_ H] Hl. apply levels_permutation. rewrite Forall_forall in *. auto.
Qed.
Lemma all_level_built (lt : LevelTree V) D z : builtPlain lt -> allEntries (entries_ lt) = D ++ [z] ->
  S (level z) = maxLevel_ lt ->
  returns (fun n => visit n AllLevel (entries_ lt)) (map data (byLevels (maxLevel_ lt) (entries_ lt))) /\
  Permutation (byLevels (maxLevel_ lt) (entries_ lt)) (allEntries (entries_ lt)).
Proof.
  intros Hb E Ez. split.
  - unfold byLevels. rewrite <- Ez. eapply all_level_visit; [now apply built_plain|exact E].
  - apply byLevels_all; [now apply built_plain|].
    destruct (built_consistent _ (plain_built _ Hb)) as [_ HB]. destruct (built_plain _ Hb) as [_ HP].
    rewrite Forall_forall in *. intros x Hx. specialize (HB x Hx). specialize (HP x Hx).
    unfold below in HB. lia.
Qed.

End Proofs.
