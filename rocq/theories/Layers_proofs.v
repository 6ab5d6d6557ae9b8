From Coq Require Import List Arith Bool ZArith Reals Lia Lra.
From Verif Require Import Layers_model Layers_spec.
Import ListNotations.

Lemma set_length {A} i (x : A) l : i < length l -> length (set i x l) = length l.
Proof. intros H. unfold set. rewrite app_length, firstn_length. cbn [length]. rewrite skipn_length. lia. Qed.
Lemma set_nth {A} (l : list A) : forall i x p, i < length l -> nth_error (set i x l) p = if p =? i then Some x else nth_error l p.
Proof.
  induction l as [|a l IH]; intros i x p H; [cbn in H; lia|]. destruct i as [|i].
  - unfold set. cbn. destruct p; reflexivity.
  - unfold set in *. cbn [firstn skipn app]. destruct p as [|p]; [reflexivity|]. cbn [nth_error Nat.eqb]. apply IH. cbn in H. lia.
Qed.
Lemma nth_of {A} (l : list A) p d : nth p l d = match nth_error l p with Some x => x | None => d end.
Proof. revert p. induction l as [|a l IH]; intros [|p]; cbn; auto. Qed.

(** bounding boxes, for one of the two functions *)
Section Extremes.
Context (f : option R -> R -> option R) (le : R -> R -> Prop).
Context (f_none : forall b, f None b = Some b)
        (f_some : forall a b, exists c, f (Some a) b = Some c /\ (c = a \/ c = b) /\ le c a /\ le c b)
        (le_refl : forall a, le a a) (le_trans : forall a b c, le a b -> le b c -> le a c).
Definition summary (P : R -> Prop) (a : option R) : Prop :=
  match a with None => forall x, ~ P x | Some x => P x /\ forall y, P y -> le x y end.
Lemma summary_iff P Q a : (forall x, P x <-> Q x) -> summary P a -> summary Q a.
Proof using. intros E. destruct a as [x|]; cbn; [intros [H1 H2]; split; [now apply E|intros y Hy; apply H2; now apply E]|intros H x Hx; apply (H x); now apply E]. Qed.
Lemma summary_merge P Q a b : summary P a -> summary Q b -> summary (fun x => P x \/ Q x) (match b with None => a | Some x => f a x end).
Proof using f_none f_some le_trans.
  destruct b as [b|]; cbn [summary].
  - destruct a as [a|]; cbn [summary]; intros Ha [Qb Lb].
    + destruct Ha as [Pa La]. destruct (f_some a b) as [c [-> [E [Ca Cb]]]]. split; [destruct E as [-> | ->]; auto|].
      intros y [H|H]; [apply (le_trans _ a); auto|apply (le_trans _ b); auto].
    + rewrite f_none. split; [now right|]. intros y [H|H]; [now destruct (Ha y)|auto].
  - intros Ha Nb. destruct a as [a|]; cbn in *.
    + destruct Ha as [Pa La]. split; [now left|]. intros y [H|H]; [auto|now destruct (Nb y)].
    + intros x [H|H]; [now apply (Ha x)|now apply (Nb x)].
Qed.
Lemma summary_add P a b : summary P a -> summary (fun x => P x \/ x = b) (f a b).
Proof using f_none f_some le_refl le_trans.
  intros H. apply (summary_merge P (fun x => x = b) a (Some b) H). split; [reflexivity|]. intros y ->. apply le_refl.
Qed.

Lemma update_nth coords : forall at_ l, at_ + length coords <= length l -> length (update f at_ coords l) = length l /\
  forall p, nth p (update f at_ coords l) None = match (if at_ <=? p then nth_error coords (p - at_) else None) with Some x => f (nth p l None) x | None => nth p l None end.
Proof using.
  induction coords as [|x r IH]; intros a l H; cbn [update length] in *.
  - split; [reflexivity|]. intros p. destruct (a <=? p); [destruct (p - a)|]; reflexivity.
  - destruct (IH (S a) (set a (f (nth a l None) x) l)) as [L N]; [rewrite set_length by lia; lia|]. rewrite set_length in L by lia. split; [exact L|].
    intros p. rewrite N. rewrite !(nth_of (set _ _ _)), set_nth by lia. destruct (Nat.eqb_spec p a) as [->|Ne].
    + destruct (Nat.leb_spec (S a) a); [lia|]. rewrite Nat.leb_refl, Nat.sub_diag. reflexivity.
    + rewrite <- nth_of. destruct (Nat.leb_spec (S a) p); destruct (Nat.leb_spec a p); try lia; [|reflexivity].
      replace (p - a) with (S (p - S a)) by lia. reflexivity.
Qed.
Lemma update_at dim z i j node l : length node = dim -> dim * z + dim <= length l -> j < dim ->
  nth (dim * i + j) (update f (dim * z) node l) None =
  if z =? i then match nth_error node j with Some x => f (nth (dim * i + j) l None) x | None => nth (dim * i + j) l None end else nth (dim * i + j) l None.
Proof using.
  intros L H Hj. destruct (update_nth node (dim * z) l ltac:(lia)) as [_ N]. rewrite N. destruct (Nat.eqb_spec z i) as [->|Ne].
  - destruct (Nat.leb_spec (dim * i) (dim * i + j)); [|lia]. now replace (dim * i + j - dim * i) with j by lia.
  - destruct (Nat.leb_spec (dim * z) (dim * i + j)) as [Le|]; [|reflexivity]. assert (z < i) by nia.
    assert (O : nth_error node (dim * i + j - dim * z) = None) by (apply nth_error_None; nia). now rewrite O.
Qed.

Lemma nodes_summary dim z i j ns : j < dim -> Forall (fun node => length node = dim) ns -> forall l P, dim * z + dim <= length l -> summary P (nth (dim * i + j) l None) ->
  let l' := fold_left (fun l node => update f (dim * z) node l) ns l in
  length l' = length l /\ summary (fun x => P x \/ (z = i /\ exists node, In node ns /\ nth_error node j = Some x)) (nth (dim * i + j) l' None).
Proof using f_none f_some le_refl le_trans.
  intros Hj. induction 1 as [|node ns Hn F IH]; intros l P L S; cbn [fold_left].
  - split; [reflexivity|]. revert S. apply summary_iff. intros x. split; [auto|intros [H|[_ [node [[] _]]]]; exact H].
  - destruct (update_nth node (dim * z) l ltac:(lia)) as [Lu _].
    destruct (IH (update f (dim * z) node l) (fun x => P x \/ (z = i /\ nth_error node j = Some x))) as [L' S'].
    + rewrite Lu. exact L.
    + rewrite (update_at dim z i j node l Hn L Hj). destruct (Nat.eqb_spec z i) as [->|Ne].
      * destruct (nth_error node j) as [y|] eqn:E; [|apply nth_error_None in E; lia].
        apply (summary_iff (fun x => P x \/ x = y)); [|now apply summary_add]. intros x. split; (intros [H|H]; [auto|right]); [subst; auto|destruct H as [_ H]; congruence].
      * revert S. apply summary_iff. intros x. split; [auto|intros [H|[H _]]; [exact H|contradiction]].
    + split; [now rewrite L', Lu|]. revert S'. apply summary_iff. intros x. split.
      * intros [[H|[-> H]]|[-> [n [I H]]]]; [auto|right; split; [reflexivity|exists node; split; [now left|exact H]]|right; split; [reflexivity|exists n; split; [now right|exact H]]].
      * intros [H|[-> [n [[<-|I] H]]]]; [auto|auto|right; split; [reflexivity|eauto]].
Qed.
Definition mesh_ok (dim zones : nat) (e : element) : Prop := zoneId e < zones /\ Forall (fun node => length node = dim) (nodes e).
Lemma elements_summary dim zones i j es : j < dim -> Forall (mesh_ok dim zones) es -> forall l P, length l = dim * zones -> summary P (nth (dim * i + j) l None) ->
  let l' := fold_left (fun l e => if owned e then fold_left (fun l node => update f (dim * zoneId e) node l) (nodes e) l else l) es l in
  length l' = length l /\ summary (fun x => P x \/ exists e node, In e es /\ owned e = true /\ zoneId e = i /\ In node (nodes e) /\ nth_error node j = Some x) (nth (dim * i + j) l' None).
Proof using f_none f_some le_refl le_trans.
  intros Hj. induction 1 as [|e es [Hz Hn] F IH]; intros l P L S; cbn [fold_left].
  - split; [reflexivity|]. revert S. apply summary_iff. intros x. split; [auto|intros [H|[e [n [[] _]]]]; exact H].
  - destruct (owned e) eqn:O.
    + destruct (nodes_summary dim (zoneId e) i j (nodes e) Hj Hn l P ltac:(nia) S) as [L1 S1].
      destruct (IH _ _ (eq_trans L1 L) S1) as [L2 S2]. split; [now rewrite L2|]. revert S2. apply summary_iff. intros x. split.
      * intros [[H|[E [n [I H]]]]|[e' [n [I H]]]]; [auto|right; exists e, n; repeat split; auto; now left|right; exists e', n; split; [now right|exact H]].
      * intros [H|[e' [n [[<-|I] [O' [E [In' H]]]]]]]; [auto|left; right; split; [exact E|eauto]|right; exists e', n; auto].
    + destruct (IH l P L S) as [L2 S2]. split; [exact L2|]. revert S2. apply summary_iff. intros x. split.
      * intros [H|[e' [n [I H]]]]; [auto|right; exists e', n; split; [now right|exact H]].
      * intros [H|[e' [n [[<-|I] [O' H]]]]]; [auto|congruence|right; exists e', n; auto].
Qed.
Lemma nth_repeat_none n p : nth p (repeat (@None R) n) None = None.
Proof using. revert p. induction n as [|n IH]; intros [|p]; cbn; auto. Qed.
Lemma merge_nth a b p : length a = length b -> length (merge f a b) = length a /\
  nth p (merge f a b) None = match nth p b None with None => nth p a None | Some x => f (nth p a None) x end.
Proof using.
  unfold merge. revert b p. induction a as [|x a IH]; intros [|y b] p L; try discriminate.
  - split; [reflexivity|]. destruct p; reflexivity.
  - cbn in L. destruct (IH b (pred p) ltac:(lia)) as [L1 N1]. split; [cbn [combine map length]; now rewrite L1|]. destruct p as [|p]; [reflexivity|]. exact N1.
Qed.
Lemma box_summary dim zones ps i j : j < dim -> Forall (Forall (mesh_ok dim zones)) ps -> summary (coordinate ps i j) (box f dim zones ps i j).
Proof using f_none f_some le_refl le_trans.
  intros Hj F. unfold box, Allreduce.
  assert (G : forall l P, length l = dim * zones -> summary P (nth (dim * i + j) l None) ->
    summary (fun x => P x \/ coordinate ps i j x) (nth (dim * i + j) (fold_left (merge f) (map (bounds f dim zones) ps) l) None)).
  { induction F as [|es ps Fe F IH]; intros l P L S; cbn [map fold_left].
    - revert S. apply summary_iff. intros x. split; [auto|intros [H|[es [e [n [[] _]]]]]; exact H].
    - destruct (elements_summary dim zones i j es Hj Fe (repeat None (dim * zones)) (fun _ => False) (repeat_length _ _)) as [L1 S1]; [rewrite nth_repeat_none; cbn; auto|].
      fold (bounds f dim zones es) in L1, S1. rewrite repeat_length in L1.
      destruct (merge_nth l (bounds f dim zones es) (dim * i + j) ltac:(congruence)) as [L2 N2].
      specialize (IH (merge f l (bounds f dim zones es)) _ (eq_trans L2 L) ltac:(rewrite N2; exact (summary_merge _ _ _ _ S S1))). revert IH. apply summary_iff. intros x. split.
      + intros [[H|[[]|[e [n H]]]]|[es' [e [n [I H]]]]]; [auto| |].
        * right. exists es, e, n. split; [now left|exact H].
        * right. exists es', e, n. split; [now right|exact H].
      + intros [H|[es' [e [n [[<-|I] H]]]]]; [auto| |].
        * left. right. right. exists e, n. exact H.
        * right. exists es', e, n. split; assumption. }
  specialize (G (repeat None (dim * zones)) (fun _ => False) (repeat_length _ _)). rewrite nth_repeat_none in G. specialize (G ltac:(cbn; auto)). revert G. apply summary_iff. intros x. tauto.
Qed.
End Extremes.
Lemma lower_some a b : exists c, lower (Some a) b = Some c /\ (c = a \/ c = b) /\ (c <= a)%R /\ (c <= b)%R.
Proof. unfold lower. destruct (Rlt_dec b a); eexists; (split; [reflexivity|]); split; auto; lra. Qed.
Lemma upper_some a b : exists c, upper (Some a) b = Some c /\ (c = a \/ c = b) /\ (a <= c)%R /\ (b <= c)%R.
Proof. unfold upper. destruct (Rlt_dec a b); eexists; (split; [reflexivity|]); split; auto; lra. Qed.

(** the layers *)
Section Apply.
Context {Name Material : Type} (same : Name -> Name -> bool).
Context (same_eq : forall a b, same a b = true <-> a = b).
Lemma first_zone_at name zones : NoDup zones -> forall j k, nth_error zones k = Some name -> first_zone same name zones j = Some (j + k).
Proof using same_eq.
  induction 1 as [|z r N D IH]; intros j k H; [destruct k; discriminate|]. cbn [first_zone]. destruct (same name z) eqn:E.
  - apply same_eq in E. subst z. destruct k as [|k]; [now rewrite Nat.add_0_r|]. cbn in H. apply nth_error_In in H. contradiction.
  - destruct k as [|k]; [cbn in H; injection H as ->; assert (same name name = true) by (now apply same_eq); congruence|].
    rewrite (IH (S j) k H). f_equal. lia.
Qed.
Lemma first_zone_is name zones : forall j k, first_zone same name zones j = Some k -> j <= k /\ nth_error zones (k - j) = Some name.
Proof using same_eq.
  induction zones as [|z r IH]; intros j k H; [discriminate|]. cbn [first_zone] in H. destruct (same name z) eqn:E.
  - injection H as <-. apply same_eq in E. subst z. now rewrite Nat.sub_diag.
  - destruct (IH (S j) k H) as [L N]. split; [lia|]. replace (k - j) with (S (k - S j)) by lia. exact N.
Qed.
(** the position of the last description of a zone *)
Fixpoint lastp (name : Name) (pmls : list Name) (i : nat) : option nat :=
  match pmls with [] => None | p :: r => match lastp name r (S i) with Some x => Some x | None => if same p name then Some i else None end end.
Lemma mark_nth zones pmls : NoDup zones -> forall i idx, length idx = length zones -> length (mark same (Z.of_nat i) pmls zones idx) = length zones /\
  forall j name, nth_error zones j = Some name ->
    nth_error (mark same (Z.of_nat i) pmls zones idx) j = match lastp name pmls i with Some x => Some (- Z.of_nat x - 1)%Z | None => nth_error idx j end.
Proof using same_eq.
  intros D. induction pmls as [|p r IH]; intros i idx L; cbn [mark lastp]; [auto|].
  replace (Z.of_nat i + 1)%Z with (Z.of_nat (S i)) by lia.
  set (idx' := match first_zone same p zones 0 with Some j => set j (- Z.of_nat i - 1)%Z idx | None => idx end).
  assert (L' : length idx' = length zones).
  { unfold idx'. destruct (first_zone same p zones 0) as [k|] eqn:E; [|exact L]. apply first_zone_is in E. rewrite Nat.sub_0_r in E. destruct E as [_ E].
    assert (k < length zones) by (apply nth_error_Some; congruence). now rewrite set_length by lia. }
  destruct (IH (S i) idx' L') as [L1 N1]. split; [exact L1|]. intros j name H. rewrite (N1 j name H). destruct (lastp name r (S i)); [reflexivity|].
  assert (j < length zones) by (apply nth_error_Some; congruence). unfold idx'. destruct (same p name) eqn:E.
  - apply same_eq in E. subst p. rewrite (first_zone_at name zones D 0 j H). cbn [Nat.add]. rewrite set_nth by lia. now rewrite Nat.eqb_refl.
  - destruct (first_zone same p zones 0) as [k|] eqn:F; [|reflexivity]. apply first_zone_is in F. rewrite Nat.sub_0_r in F. destruct F as [_ F].
    assert (k < length zones) by (apply nth_error_Some; congruence). rewrite set_nth by lia. destruct (Nat.eqb_spec j k) as [->|]; [|reflexivity].
    assert (p = name) by congruence. apply same_eq in H2. congruence.
Qed.
Lemma lastp_none name pmls : forall i, lastp name pmls i = None <-> ~ In name pmls.
Proof using same_eq.
  induction pmls as [|p r IH]; intros i; cbn [lastp]; [cbn; tauto|]. destruct (lastp name r (S i)) as [x|] eqn:E.
  - split; [discriminate|]. intros H. destruct (proj2 (IH (S i))) as []; [|congruence]. intros I. apply H. now right.
  - apply IH in E. destruct (same p name) eqn:F.
    + apply same_eq in F. subst p. split; [discriminate|]. intros H. destruct H. now left.
    + split; [|reflexivity]. intros _ [->|I]; [|contradiction]. assert (same name name = true) by now apply same_eq. congruence.
Qed.
Lemma lastp_bound name pmls : forall i x, lastp name pmls i = Some x -> i <= x < i + length pmls.
Proof using.
  induction pmls as [|p r IH]; intros i x; cbn [lastp length]; [discriminate|]. destruct (lastp name r (S i)) as [y|] eqn:E.
  - intros H. injection H as <-. apply IH in E. lia.
  - destruct (same p name); [|discriminate]. intros H. injection H as <-. lia.
Qed.
Lemma lastp_last name pmls : forall i k, last_for pmls name k -> lastp name pmls i = Some (i + k).
Proof using same_eq.
  induction pmls as [|p r IH]; intros i k [H L]; [destruct k; discriminate|]. cbn [lastp]. destruct k as [|k].
  - cbn in H. injection H as ->. assert (N : ~ In name r). { intros I. apply In_nth_error in I. destruct I as [n I]. apply (L (S n)); [lia|exact I]. }
    apply (lastp_none name r (S i)) in N. rewrite N. assert (same name name = true) by now apply same_eq. rewrite H. f_equal. lia.
  - rewrite (IH (S i) k); [f_equal; lia|]. split; [exact H|]. intros j Hj. exact (L (S j) ltac:(lia)).
Qed.

Definition first_in (z : nat) (es : list (nat * Material)) : option (nat * Material) := find (fun e => fst e =? z) es.
Lemma first_in_app z a b : first_in z (a ++ b) = match first_in z a with Some e => Some e | None => first_in z b end.
Proof using. unfold first_in. induction a as [|e a IH]; cbn; [reflexivity|]. now destruct (fst e =? z). Qed.
Section Indices.
Context (I0 : list Z) (I0_ok : forall z v, nth_error I0 z = Some v -> v = NO_PML_NEEDED \/ (NO_PML_NEEDED < v < 0)%Z).
Definition good (done : list (nat * Material)) (infos : list layer) (idx : list Z) : Prop :=
  length idx = length I0 /\
  (forall z v, nth_error I0 z = Some v ->
     match first_in z done with
     | None => nth_error idx z = Some v
     | Some (_, m) => if (v =? NO_PML_NEEDED)%Z then nth_error idx z = Some v
                      else exists n, nth_error idx z = Some (Z.of_nat n) /\ nth_error infos n = Some (Layer (Z.to_nat (- v - 1)) z m)
     end) /\
  NoDup (map zone infos) /\ (forall l, In l infos -> first_in (zone l) done <> None).
Definition given (idx : list Z) (e : nat * Material) : option nat :=
  match nth_error idx (fst e) with Some v => if (v =? NO_PML_NEEDED)%Z then None else Some (Z.to_nat v) | None => None end.
Lemma no_neg : (NO_PML_NEEDED < 0)%Z. Proof using. reflexivity. Qed.
Lemma lay_good rest : forall done infos idx, good done infos idx -> Forall (fun e => fst e < length I0) rest ->
  exists infos' idx', lay rest infos idx = Some (infos', map (given idx') rest) /\ good (done ++ rest) infos' idx' /\
    forall z, first_in z done <> None -> nth_error idx' z = nth_error idx z.
Proof using I0_ok.
  induction rest as [|[z m] rest IH]; intros done infos idx G F.
  - exists infos, idx. rewrite app_nil_r. cbn. auto.
  - apply Forall_inv in F as Hz. apply Forall_inv_tail in F. cbn [fst] in Hz. pose proof G as [Li [Gi [Gd Gf]]].
    destruct (nth_error I0 z) as [v|] eqn:Ev; [|apply nth_error_None in Ev; lia]. pose proof (Gi z v Ev) as Gz. pose proof no_neg as NN.
    assert (Fz : forall y, first_in y (done ++ [(z, m)]) = match first_in y done with Some e => Some e | None => if z =? y then Some (z, m) else None end).
    { intros y. rewrite first_in_app. destruct (first_in y done); [reflexivity|]. unfold first_in. cbn. reflexivity. }
    assert (Fn : first_in z (done ++ [(z, m)]) <> None) by (rewrite Fz, Nat.eqb_refl; destruct (first_in z done); discriminate).
    assert (App : done ++ (z, m) :: rest = (done ++ [(z, m)]) ++ rest) by now rewrite <- app_assoc.
    cbn [lay]. 
    assert (Cases : (nth_error idx z = Some v /\ v = NO_PML_NEEDED) \/ (nth_error idx z = Some v /\ (NO_PML_NEEDED < v < 0)%Z /\ first_in z done = None) \/
      ((NO_PML_NEEDED < v < 0)%Z /\ first_in z done <> None /\ exists n, nth_error idx z = Some (Z.of_nat n))).
    { destruct (I0_ok z v Ev) as [E|E].
      - left. split; [|exact E]. destruct (first_in z done) as [[a b]|]; [|exact Gz]. subst v. rewrite Z.eqb_refl in Gz. exact Gz.
      - right. destruct (first_in z done) as [[a b]|]; [right|left; auto]. split; [exact E|]. split; [discriminate|].
        destruct (Z.eqb_spec v NO_PML_NEEDED) as [|_]; [lia|]. destruct Gz as [n [Gz _]]. eauto. }
    assert (Same : (nth_error idx z = Some v /\ v = NO_PML_NEEDED) \/ first_in z done <> None -> good (done ++ [(z, m)]) infos idx).
    { intros C. split; [exact Li|]. split; [|split; [exact Gd|]].
      - intros y w Ey. pose proof (Gi y w Ey) as Gy. rewrite Fz. destruct (first_in y done) as [e|] eqn:Fy; [exact Gy|].
        destruct (Nat.eqb_spec z y) as [<-|]; [|exact Gy]. destruct C as [[C ->]|C]; [|congruence].
        assert (w = NO_PML_NEEDED) by congruence. subst w. now rewrite Z.eqb_refl.
      - intros l Hl. rewrite Fz. specialize (Gf l Hl). destruct (first_in (zone l) done); [discriminate|contradiction]. }
    destruct Cases as [[E Ev']|[[E [Bv Fd]]|[Bv [Fd [n E]]]]].
    + rewrite E, Ev', Z.eqb_refl. destruct (IH _ infos idx (Same (or_introl (conj E Ev'))) F) as [infos' [idx' [-> [G' St]]]].
      exists infos', idx'. split; [|split; [now rewrite App|]].
      * cbn [map]. unfold given at 2. cbn [fst]. rewrite (St z Fn), E, Ev', Z.eqb_refl. reflexivity.
      * intros y Hy. apply St. rewrite Fz. destruct (first_in y done); [discriminate|contradiction].
    + rewrite E. destruct (Z.eqb_spec v NO_PML_NEEDED); [lia|]. destruct (Z.ltb_spec v 0); [|lia]. cbv beta iota.
      set (infos1 := infos ++ [Layer (Z.to_nat (- v - 1)) z m]). set (idx1 := set z (Z.of_nat (length infos)) idx).
      assert (S1 : forall p, nth_error idx1 p = if p =? z then Some (Z.of_nat (length infos)) else nth_error idx p) by (intros p; apply set_nth; lia).
      rewrite S1, Nat.eqb_refl.
      assert (G1 : good (done ++ [(z, m)]) infos1 idx1).
      { split; [unfold idx1; rewrite set_length by lia; exact Li|]. split; [|split].
        - intros y w Ey. rewrite Fz, S1. pose proof (Gi y w Ey) as Gy. destruct (Nat.eqb_spec y z) as [->|Ny].
          + rewrite Fd, Nat.eqb_refl. assert (w = v) by congruence. subst w. destruct (Z.eqb_spec v NO_PML_NEEDED); [lia|]. exists (length infos). split; [reflexivity|].
            unfold infos1. rewrite nth_error_app2 by lia. now rewrite Nat.sub_diag.
          + destruct (first_in y done) as [[a b]|] eqn:Fy.
            * destruct (Z.eqb_spec w NO_PML_NEEDED); [exact Gy|]. destruct Gy as [k [K1 K2]]. exists k. split; [exact K1|]. unfold infos1. rewrite nth_error_app1; [exact K2|]. apply nth_error_Some. congruence.
            * destruct (Nat.eqb_spec z y); [congruence|exact Gy].
        - unfold infos1. rewrite map_app. cbn [map]. apply NoDup_rev in Gd. rewrite <- (rev_involutive (map zone infos ++ _)). apply NoDup_rev. rewrite rev_app_distr. cbn [rev app zone].
          constructor; [|exact Gd]. rewrite <- in_rev, in_map_iff. intros [l [El Hl]]. apply (Gf l Hl). now rewrite El.
        - intros l Hl. unfold infos1 in Hl. apply in_app_or in Hl. destruct Hl as [Hl|[<-|[]]]; [|exact Fn]. rewrite Fz. specialize (Gf l Hl). destruct (first_in (zone l) done); [discriminate|contradiction]. }
      destruct (IH _ infos1 idx1 G1 F) as [infos' [idx' [-> [G' St]]]].
      exists infos', idx'. split; [|split; [now rewrite App|]].
      * cbn [map]. unfold given at 2. cbn [fst]. rewrite (St z Fn), S1, Nat.eqb_refl. destruct (Z.eqb_spec (Z.of_nat (length infos)) NO_PML_NEEDED); [lia|]. reflexivity.
      * intros y Hy. rewrite St; [|rewrite Fz; destruct (first_in y done); [discriminate|contradiction]]. rewrite S1. destruct (Nat.eqb_spec y z) as [->|]; [congruence|reflexivity].
    + rewrite E. destruct (Z.eqb_spec (Z.of_nat n) NO_PML_NEEDED); [lia|]. destruct (Z.ltb_spec (Z.of_nat n) 0); [lia|]. cbv beta iota. rewrite E.
      destruct (IH _ infos idx (Same (or_intror Fd)) F) as [infos' [idx' [-> [G' St]]]].
      exists infos', idx'. split; [|split; [now rewrite App|]].
      * cbn [map]. unfold given at 2. cbn [fst]. rewrite (St z Fn), E. destruct (Z.eqb_spec (Z.of_nat n) NO_PML_NEEDED); [lia|]. reflexivity.
      * intros y Hy. apply St. rewrite Fz. destruct (first_in y done); [discriminate|contradiction].
Qed.
End Indices.

Lemma apply_layers (pmls zones : list Name) (elements : list (nat * Material)) :
  NoDup zones -> (Z.of_nat (length pmls) < 2 ^ 31)%Z -> Forall (fun e => fst e < length zones) elements ->
  exists layers used, applyPMLs same pmls zones elements = Some (layers, used) /\ length used = length elements /\ NoDup (map zone layers) /\
    forall k z m name, nth_error elements k = Some (z, m) -> nth_error zones z = Some name ->
      (~ In name pmls -> nth_error used k = Some None) /\
      (forall i, last_for pmls name i -> exists n first, nth_error used k = Some (Some n) /\ nth_error layers n = Some (Layer i z first) /\ find (fun e => fst e =? z) elements = Some (z, first)).
Proof using same_eq.
  intros D B F. unfold applyPMLs. destruct pmls as [|p0 pr].
  { exists [], (map (fun _ => None) elements). split; [reflexivity|]. split; [apply map_length|]. split; [constructor|]. intros k z m name H _. split.
    - intros _. now rewrite nth_error_map, H.
    - intros i [H1 _]. destruct i; discriminate. }
  set (pmls := p0 :: pr) in *. clearbody pmls. clear p0 pr.
  destruct (mark_nth zones pmls D 0 (repeat NO_PML_NEEDED (length zones)) (repeat_length _ _)) as [L N]. change (Z.of_nat 0) with 0%Z in *.
  set (I0 := mark same 0 pmls zones (repeat NO_PML_NEEDED (length zones))) in *. clearbody I0.
  assert (N' : forall z name, nth_error zones z = Some name -> nth_error I0 z = Some (match lastp name pmls 0 with Some x => (- Z.of_nat x - 1)%Z | None => NO_PML_NEEDED end)).
  { intros z name H. rewrite (N z name H). destruct (lastp name pmls 0); [reflexivity|]. apply nth_error_repeat. apply nth_error_Some. congruence. }
  assert (Bx : forall name x, lastp name pmls 0 = Some x -> (NO_PML_NEEDED < - Z.of_nat x - 1 < 0)%Z \/ (- Z.of_nat x - 1 = NO_PML_NEEDED)%Z).
  { intros name x H. apply lastp_bound in H. unfold NO_PML_NEEDED. lia. }
  assert (Bs : forall name x, lastp name pmls 0 = Some x -> (NO_PML_NEEDED < - Z.of_nat x - 1 < 0)%Z).
  { intros name x H. apply lastp_bound in H. unfold NO_PML_NEEDED. lia. }
  assert (OK : forall z v, nth_error I0 z = Some v -> v = NO_PML_NEEDED \/ (NO_PML_NEEDED < v < 0)%Z).
  { intros z v H. assert (Hz : z < length zones) by (rewrite <- L; apply nth_error_Some; congruence). destruct (nth_error zones z) as [name|] eqn:E; [|apply nth_error_None in E; lia].
    rewrite (N' z name E) in H. injection H as <-. destruct (lastp name pmls 0) as [x|] eqn:Ex; [right; eauto|now left]. }
  assert (G : good I0 [] [] I0).
  { split; [reflexivity|]. split; [intros z v H; exact H|]. split; [constructor|intros l []]. }
  destruct (lay_good I0 OK elements [] [] I0 G) as [infos [idx [-> [[Li [Gi [Gd Gf]]] _]]]]; [rewrite L; exact F|].
  exists infos, (map (given idx) elements). split; [reflexivity|]. split; [apply map_length|]. split; [exact Gd|].
  intros k z m name Hk Hz. cbn [app] in *. specialize (Gi z _ (N' z name Hz)).
  assert (Ff : exists first, first_in z elements = Some (z, first)).
  { destruct (first_in z elements) as [[a b]|] eqn:Ea.
    - unfold first_in in Ea. apply find_some in Ea. destruct Ea as [_ Ea]. apply Nat.eqb_eq in Ea. cbn in Ea. subst a. eauto.
    - unfold first_in in Ea. apply (find_none _ _) with (x := (z, m)) in Ea; [|now apply nth_error_In in Hk]. cbn in Ea. rewrite Nat.eqb_refl in Ea. discriminate. }
  destruct Ff as [first Ff]. rewrite Ff in Gi. rewrite nth_error_map, Hk. unfold given. cbn [option_map fst]. split.
  - intros Nn. apply (lastp_none name pmls 0) in Nn. rewrite Nn, Z.eqb_refl in Gi. now rewrite Gi, Z.eqb_refl.
  - intros i Hi. apply (lastp_last name pmls 0) in Hi. cbn [Nat.add] in Hi. rewrite Hi in Gi. pose proof (Bs name i Hi). pose proof no_neg.
    destruct (Z.eqb_spec (- Z.of_nat i - 1) NO_PML_NEEDED); [lia|]. destruct Gi as [n' [G1 G2]]. exists n', first. rewrite G1. destruct (Z.eqb_spec (Z.of_nat n') NO_PML_NEEDED); [lia|].
    rewrite Nat2Z.id. split; [reflexivity|]. split; [|exact Ff]. rewrite G2. repeat f_equal. lia.
Qed.
End Apply.
