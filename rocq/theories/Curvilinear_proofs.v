From Coq Require Import List Arith Bool Lia ZArith Permutation Reals Lra Field.
From Verif Require Import Matrix_model Matrix_spec RefGeometry_model RefGeometry_spec RefGeometry_proofs
  Curvilinear_model Curvilinear_spec.
Import ListNotations.
Local Open Scope R_scope.

(** ** numbers of points *)
Lemma length_flat_map : forall A B (f : A -> list B) l, length (flat_map f l) = list_sum (map (fun x => length (f x)) l).
Proof. induction l as [|x l IH]; [reflexivity|]. cbn. rewrite app_length, IH. reflexivity. Qed.
Lemma sum_down : forall n, (2 * list_sum (map (fun i => n - i) (seq 0 n)) = n * (n + 1))%nat.
Proof.
  induction n as [|n IH]; [reflexivity|]. cbn [seq map]. rewrite <- seq_shift, map_map.
  change (list_sum (S n - 0 :: ?l)%nat) with (S n - 0 + list_sum l)%nat.
  rewrite (map_ext (fun x => S n - S x)%nat (fun x => n - x)%nat) by (intros; lia). lia.
Qed.
Lemma sum_down2 : forall n, (6 * list_sum (map (fun k => list_sum (map (fun i => (n - k) - i) (seq 0 (n - k)))) (seq 0 n))
  = n * (n + 1) * (n + 2))%nat.
Proof.
  induction n as [|n IH]; [reflexivity|]. cbn [seq map]. rewrite <- seq_shift, map_map.
  change (list_sum (?a :: ?l)) with (a + list_sum l)%nat.
  rewrite (map_ext (fun x => list_sum (map (fun i => (S n - S x) - i) (seq 0 (S n - S x)))%nat)
    (fun k => list_sum (map (fun i => (n - k) - i) (seq 0 (n - k)))%nat)) by (intros; reflexivity).
  assert (H := sum_down (S n - 0)). lia.
Qed.
Lemma points_number : forall s o, has_curved_version s ->
  length (geometry_points (Curvilinear s o)) = expected_number_of_points s o.
Proof.
  intros s o [-> | [-> | ->]]; cbn [geometry_points expected_number_of_points].
  - unfold line_points. rewrite map_length, seq_length. reflexivity.
  - unfold triangle_points. rewrite length_flat_map.
    rewrite (map_ext _ (fun i => o + 1 - i)%nat) by (intros; rewrite map_length, seq_length; reflexivity).
    assert (H := sum_down (o + 1)). apply Nat.div_unique_exact; lia.
  - unfold tetrahedron_points. rewrite length_flat_map.
    rewrite (map_ext _ (fun k => list_sum (map (fun i => (o + 1 - k) - i) (seq 0 (o + 1 - k))))%nat).
    + assert (H := sum_down2 (o + 1)). apply Nat.div_unique_exact; lia.
    + intros k. rewrite length_flat_map. f_equal. apply map_ext. intros i. rewrite map_length, seq_length. reflexivity.
Qed.

(** ** the nodes as a grid *)
Definition grid (o : nat) (l : list nat) : point := map (fun n => INR n * (1 / INR o)) l.
Definition line_node (o i : nat) : point := [-1 + INR i * (2 / INR o)].
Lemma in_line : forall o p, In p (line_points o) <-> exists i, (i <= o)%nat /\ p = line_node o i.
Proof.
  intros o p. unfold line_points. rewrite in_map_iff. split.
  - intros (i & <- & H). apply in_seq in H. exists i. split; [lia|reflexivity].
  - intros (i & H & ->). exists i. split; [reflexivity|]. apply in_seq. lia.
Qed.
Lemma in_triangle : forall o p, In p (triangle_points o) <-> exists i j, (i + j <= o)%nat /\ p = grid o [j; i].
Proof.
  intros o p. unfold triangle_points. rewrite in_flat_map. split.
  - intros (i & Hi & H). apply in_map_iff in H. destruct H as (j & <- & Hj). apply in_seq in Hi, Hj.
    exists i, j. split; [lia|reflexivity].
  - intros (i & j & H & ->). exists i. split; [apply in_seq; lia|]. apply in_map_iff. exists j.
    split; [reflexivity|]. apply in_seq. lia.
Qed.
Lemma in_tetrahedron : forall o p, In p (tetrahedron_points o) <->
  exists x y z, (x + y + z <= o)%nat /\ p = grid o [x; y; z].
Proof.
  intros o p. unfold tetrahedron_points. rewrite in_flat_map. split.
  - intros (z & Hz & H). apply in_flat_map in H. destruct H as (y & Hy & H).
    apply in_map_iff in H. destruct H as (x & <- & Hx). apply in_seq in Hx, Hy, Hz.
    exists x, y, z. split; [lia|reflexivity].
  - intros (x & y & z & H & ->). exists z. split; [apply in_seq; lia|]. apply in_flat_map. exists y.
    split; [apply in_seq; lia|]. apply in_map_iff. exists x. split; [reflexivity|]. apply in_seq. lia.
Qed.

Definition eps2 : R := / 10 ^ 8 * / 10 ^ 8.
Lemma distance_nonneg : forall p q, 0 <= distance_squared p q.
Proof.
  induction p as [|x p IH]; intros [|y q]; cbn; try lra. specialize (IH q).
  assert (0 <= (x - y) * (x - y)) by apply Rle_0_sqr. lra.
Qed.
Lemma distance_self : forall p, distance_squared p p = 0.
Proof. induction p as [|x p IH]; cbn; [reflexivity|]. rewrite IH. ring. Qed.
Lemma eps2_pos : 0 < eps2.
Proof. unfold eps2. apply Rmult_lt_0_compat; apply Rinv_0_lt_compat, pow_lt; lra. Qed.

Lemma spacing : forall o, (0 < o)%nat -> INR o <= 10 ^ 8 -> / 10 ^ 8 <= 1 / INR o.
Proof.
  intros o H B. unfold Rdiv. rewrite Rmult_1_l. apply Rinv_le_contravar; [apply lt_0_INR; exact H|exact B].
Qed.
Lemma integer_gap : forall a b h, a <> b -> 0 <= h -> h * h <= (INR a * h - INR b * h) * (INR a * h - INR b * h).
Proof.
  intros a b h H Hh.
  replace ((INR a * h - INR b * h) * (INR a * h - INR b * h)) with (h * h * ((INR a - INR b) * (INR a - INR b))) by ring.
  assert (1 <= (INR a - INR b) * (INR a - INR b)).
  { destruct (Nat.lt_total a b) as [L|[E|L]]; [|contradiction|].
    - assert (INR a + 1 <= INR b) by (rewrite <- S_INR; apply le_INR; lia). nra.
    - assert (INR b + 1 <= INR a) by (rewrite <- S_INR; apply le_INR; lia). nra. }
  assert (0 <= h * h) by nra. nra.
Qed.
Lemma square_gap : forall h, / 10 ^ 8 <= h -> eps2 <= h * h.
Proof.
  intros h H. unfold eps2. assert (0 < / 10 ^ 8) by (apply Rinv_0_lt_compat, pow_lt; lra).
  apply Rmult_le_compat; lra.
Qed.
Lemma grid_gap : forall o l m, (0 < o)%nat -> INR o <= 10 ^ 8 -> length l = length m ->
  l = m \/ eps2 <= distance_squared (grid o l) (grid o m).
Proof.
  intros o l m Ho B. revert m. assert (S := spacing o Ho B). assert (G := square_gap _ S).
  induction l as [|a l IH]; intros [|b m] L; try discriminate L; [left; reflexivity|]. injection L as L.
  destruct (Nat.eq_dec a b) as [<-|N].
  - destruct (IH m L) as [->|D]; [left; reflexivity|]. right. cbn. unfold grid in D. lra.
  - right. cbn. assert (P := distance_nonneg (grid o l) (grid o m)). unfold grid in P.
    assert (I := integer_gap a b (1 / INR o) N). assert (0 < / 10 ^ 8) by (apply Rinv_0_lt_compat, pow_lt; lra).
    assert (0 <= 1 / INR o) by lra. specialize (I H0). lra.
Qed.
Lemma line_gap : forall o i j, (0 < o)%nat -> INR o <= 10 ^ 8 ->
  i = j \/ eps2 <= distance_squared (line_node o i) (line_node o j).
Proof.
  intros o i j Ho B. destruct (Nat.eq_dec i j) as [E|N]; [left; exact E|right].
  assert (S := spacing o Ho B). unfold line_node. cbn [distance_squared].
  assert (0 < / 10 ^ 8) by (apply Rinv_0_lt_compat, pow_lt; lra).
  assert (I := integer_gap i j (2 / INR o) N). assert (E2 : 2 / INR o = 2 * (1 / INR o)) by (unfold Rdiv; ring).
  assert (G := square_gap (2 / INR o)). lra.
Qed.

(** ** looking up points *)
Lemma find_point_ok : forall p ps, In p ps -> (forall q, In q ps -> q = p \/ eps2 <= distance_squared p q) ->
  exists k, find_point p ps = Some k /\ nth_error ps k = Some p.
Proof.
  intros p ps. induction ps as [|q ps IH]; intros Hin Hs; [destruct Hin|]. cbn [find_point].
  destruct (Rlt_dec _ _) as [L|L].
  - exists 0%nat. split; [reflexivity|]. destruct (Hs q (or_introl eq_refl)) as [-> |D]; [reflexivity|].
    unfold eps2 in D. lra.
  - destruct Hin as [-> |Hin].
    + exfalso. apply L. rewrite distance_self. apply eps2_pos.
    + destruct IH as (k & E & N); [exact Hin|intros; apply Hs; right; assumption|].
      exists (S k). rewrite E. split; [reflexivity|exact N].
Qed.
Lemma nodes_apart : forall s o, has_curved_version s -> (0 < o)%nat -> INR o <= 10 ^ 8 ->
  forall p q, In p (geometry_points (Curvilinear s o)) -> In q (geometry_points (Curvilinear s o)) ->
  q = p \/ eps2 <= distance_squared p q.
Proof.
  intros s o [-> | [-> | ->]] Ho B p q Hp Hq; cbn [geometry_points] in Hp, Hq.
  - apply in_line in Hp, Hq. destruct Hp as (i & _ & ->), Hq as (j & _ & ->).
    destruct (line_gap o i j Ho B) as [-> |D]; [left; reflexivity|right; exact D].
  - apply in_triangle in Hp, Hq. destruct Hp as (i & j & _ & ->), Hq as (i' & j' & _ & ->).
    destruct (grid_gap o [j; i] [j'; i'] Ho B eq_refl) as [E|D]; [left; rewrite E; reflexivity|right; exact D].
  - apply in_tetrahedron in Hp, Hq. destruct Hp as (i & j & k & _ & ->), Hq as (i' & j' & k' & _ & ->).
    destruct (grid_gap o [i; j; k] [i'; j'; k'] Ho B eq_refl) as [E|D]; [left; rewrite E; reflexivity|right; exact D].
Qed.
Lemma find_points_ok : forall s o, has_curved_version s -> (0 < o)%nat -> INR o <= 10 ^ 8 ->
  forall qs, incl qs (geometry_points (Curvilinear s o)) ->
  exists l, find_points qs (geometry_points (Curvilinear s o)) = Some l /\ length l = length qs /\
    forall k q i, nth_error qs k = Some q -> nth_error l k = Some i ->
      nth_error (geometry_points (Curvilinear s o)) i = Some q.
Proof.
  intros s o Hs Ho B. induction qs as [|q qs IH]; intros Hq.
  - exists []. split; [reflexivity|]. split; [reflexivity|]. intros [|k] q i H; discriminate H.
  - destruct IH as (l & E & L & H); [intros x Hx; apply Hq; right; exact Hx|].
    assert (Hin : In q (geometry_points (Curvilinear s o))) by (apply Hq; left; reflexivity).
    destruct (find_point_ok q (geometry_points (Curvilinear s o)) Hin) as (i & Ei & Ni).
    { intros q' Hq'. apply (nodes_apart s o); assumption. }
    exists (i :: l). cbn [find_points]. rewrite Ei, E. split; [reflexivity|]. split; [cbn; rewrite L; reflexivity|].
    intros [|k] q' i' H1 H2; cbn in H1, H2; [injection H1 as <-; injection H2 as <-; exact Ni|eapply H; eassumption].
Qed.

Lemma INR_inv : forall o, (0 < o)%nat -> INR o * (1 / INR o) = 1.
Proof. intros o H. field. apply not_0_INR. lia. Qed.

Lemma corners_are_nodes : forall s o, has_curved_version s -> (0 < o)%nat ->
  incl (points s) (geometry_points (Curvilinear s o)).
Proof.
  intros s o [-> | [-> | ->]] Ho p Hp; cbn [geometry_points]; assert (E := INR_inv o Ho);
    assert (N := not_0_INR o ltac:(lia)).
  - apply in_line. cbn in Hp. destruct Hp as [<-|[<-|[]]].
    + exists 0%nat. split; [lia|]. unfold line_node. cbn. point_eq ltac:(ring).
    + exists o. split; [lia|]. unfold line_node. point_eq ltac:(field; exact N).
  - apply in_triangle. cbn in Hp. destruct Hp as [<-|[<-|[<-|[]]]].
    + exists 0%nat, 0%nat. split; [lia|]. cbn. point_eq ltac:(ring).
    + exists 0%nat, o. split; [lia|]. unfold grid. cbn [map]. rewrite E. point_eq ltac:(cbn; ring).
    + exists o, 0%nat. split; [lia|]. unfold grid. cbn [map]. rewrite E. point_eq ltac:(cbn; ring).
  - apply in_tetrahedron. cbn in Hp. destruct Hp as [<-|[<-|[<-|[<-|[]]]]].
    + exists 0%nat, 0%nat, 0%nat. split; [lia|]. cbn. point_eq ltac:(ring).
    + exists o, 0%nat, 0%nat. split; [lia|]. unfold grid. cbn [map]. rewrite E. point_eq ltac:(cbn; ring).
    + exists 0%nat, o, 0%nat. split; [lia|]. unfold grid. cbn [map]. rewrite E. point_eq ltac:(cbn; ring).
    + exists 0%nat, 0%nat, o. split; [lia|]. unfold grid. cbn [map]. rewrite E. point_eq ltac:(cbn; ring).
Qed.

Lemma base_indices_ok : forall s o, has_curved_version s -> (0 < o)%nat -> INR o <= 10 ^ 8 ->
  exists l, base_indices (Curvilinear s o) = Some l /\ length l = length (points s) /\
    forall k q i, nth_error (points s) k = Some q -> nth_error l k = Some i ->
      nth_error (geometry_points (Curvilinear s o)) i = Some q.
Proof.
  intros s o Hs Ho B. unfold base_indices. cbn [base].
  apply find_points_ok; [assumption..|]. apply corners_are_nodes; assumption.
Qed.

(** ** sides *)
Lemma map_points_ok : forall m ps, (forall p, In p ps -> exists q, transform m p = Some q) ->
  exists qs, map_points m ps = Some qs /\ length qs = length ps /\
  forall k p q, nth_error ps k = Some p -> nth_error qs k = Some q -> transform m p = Some q.
Proof.
  intros m. induction ps as [|p ps IH]; intros H.
  - exists []. split; [reflexivity|]. split; [reflexivity|]. intros [|k] p q E; discriminate E.
  - destruct (H p (or_introl eq_refl)) as (q & Eq). destruct IH as (qs & E & L & N).
    { intros x Hx. apply H. right. exact Hx. }
    exists (q :: qs). cbn [map_points]. rewrite Eq, E. split; [reflexivity|]. split; [cbn; congruence|].
    intros [|k] p' q' H1 H2; cbn in H1, H2; [congruence|eapply N; eassumption].
Qed.
Lemma map_points_in : forall m ps qs, map_points m ps = Some qs -> forall q, In q qs -> exists p, In p ps /\ transform m p = Some q.
Proof.
  intros m. induction ps as [|p ps IH]; intros qs E q Hq; cbn [map_points] in E.
  - injection E as <-. destruct Hq.
  - destruct (transform m p) as [q0|] eqn:Eq; [|discriminate E].
    destruct (map_points m ps) as [qs0|] eqn:Eqs; [|discriminate E]. injection E as <-.
    destruct Hq as [<-|Hq]; [exists p; split; [left; reflexivity|exact Eq]|].
    destruct (IH qs0 eq_refl q Hq) as (p' & H & T). exists p'. split; [right; exact H|exact T].
Qed.

Lemma inside_INR : forall o i, (i <= o)%nat -> INR (o - i) = INR o - INR i.
Proof. intros. apply minus_INR. assumption. Qed.

(** the image of a node of a side is a node *)
Lemma side_nodes : forall s o f m cg, s = Triangle \/ s = Tetrahedron -> (0 < o)%nat ->
  getCodim1MappingPtr s f = Some m -> codim1_geometry (Curvilinear s o) f = Some cg ->
  forall p, In p (geometry_points cg) ->
  exists q, transform m p = Some q /\ In q (geometry_points (Curvilinear s o)).
Proof.
  intros s o f m cg Hs Ho Hm Hc p Hp. assert (N := not_0_INR o ltac:(lia)).
  destruct Hs as [-> | ->]; enum 5%nat f; cbn in Hm, Hc; try discriminate Hm; injs; cbn [geometry_points] in *.
  1-3: apply in_line in Hp; destruct Hp as (i & Hi & ->); (eexists; split; [reflexivity|]); apply in_triangle.
  4-7: apply in_triangle in Hp; destruct Hp as (i & j & Hij & ->); (eexists; split; [reflexivity|]); apply in_tetrahedron.
  - exists 0%nat, i. split; [lia|]. unfold grid. cbn [map]. point_eq ltac:(cbn; field; exact N).
  - exists i, 0%nat. split; [lia|]. unfold grid. cbn [map]. point_eq ltac:(cbn; field; exact N).
  - exists i, (o - i)%nat. split; [lia|]. unfold grid. cbn [map]. rewrite inside_INR by lia.
    point_eq ltac:(field; exact N).
  - exists 0%nat, i, j. split; [lia|]. unfold grid. cbn [map]. point_eq ltac:(cbn; field; exact N).
  - exists j, 0%nat, i. split; [lia|]. unfold grid. cbn [map]. point_eq ltac:(cbn; field; exact N).
  - exists i, j, 0%nat. split; [lia|]. unfold grid. cbn [map]. point_eq ltac:(cbn; field; exact N).
  - exists (o - i - j)%nat, j, i. split; [lia|]. unfold grid. cbn [map]. rewrite !minus_INR by lia.
    point_eq ltac:(field; exact N).
Qed.
Lemma nth_error_combined : forall A (l : list A) k, (k < length l)%nat -> exists x, nth_error l k = Some x.
Proof. intros A l k H. destruct (nth_error l k) eqn:E; [eauto|]. apply nth_error_None in E. lia. Qed.

Lemma sides_ok : forall s o f m cg, s = Triangle \/ s = Tetrahedron -> (0 < o)%nat -> INR o <= 10 ^ 8 ->
  getCodim1MappingPtr s f = Some m -> codim1_geometry (Curvilinear s o) f = Some cg ->
  exists ns, codim1_indices (Curvilinear s o) f = Some ns /\
    maps_nodes_to m (geometry_points cg) (geometry_points (Curvilinear s o)) ns.
Proof.
  intros s o f m cg Hs Ho B Hm Hc.
  assert (Hs' : has_curved_version s) by (destruct Hs; subst; unfold has_curved_version; tauto).
  assert (Sd := side_nodes s o f m cg Hs Ho Hm Hc).
  destruct (map_points_ok m (geometry_points cg)) as (qs & E & L & N).
  { intros p Hp. destruct (Sd p Hp) as (q & Eq & _). exists q. exact Eq. }
  destruct (find_points_ok s o Hs' Ho B qs) as (l & El & Ll & Nl).
  { intros q Hq. destruct (map_points_in _ _ _ E q Hq) as (p & Hp & T).
    destruct (Sd p Hp) as (q' & T' & Hq'). congruence. }
  exists l. split.
  - destruct Hs; subst; cbn [codim1_indices]; rewrite Hm, Hc, E; exact El.
  - split; [congruence|]. intros k p i Hp Hi.
    destruct (nth_error_combined _ qs k) as (q & Hq).
    { rewrite L. apply nth_error_Some. congruence. }
    exists q. split; [eapply Nl; eassumption|eapply N; eassumption].
Qed.
Lemma line_sides_ok : forall o f, (0 < o)%nat -> INR o <= 10 ^ 8 -> (f < 2)%nat ->
  exists i m q, codim1_indices (Curvilinear Line o) f = Some [i] /\ getCodim1MappingPtr Line f = Some m /\
    transform m [] = Some q /\ nth_error (geometry_points (Curvilinear Line o)) i = Some q.
Proof.
  intros o f Ho B Hf.
  destruct (base_indices_ok Line o (or_introl eq_refl) Ho B) as (l & E & L & N).
  cbn [codim1_indices]. rewrite E. destruct (nth_error_combined _ l f) as (i & Hi); [rewrite L; exact Hf|].
  rewrite Hi. exists i. enum 2%nat f; try lia; (do 2 eexists; split; [reflexivity|split; [reflexivity|split; [reflexivity|]]]).
  - apply (N 0%nat); [|exact Hi]. reflexivity.
  - apply (N 1%nat); [|exact Hi]. reflexivity.
Qed.

(** ** no node is listed twice *)
Lemma NoDup_flat_map : forall A B (f : A -> list B) l, NoDup l -> (forall x, In x l -> NoDup (f x)) ->
  (forall x y z, In x l -> In y l -> In z (f x) -> In z (f y) -> x = y) -> NoDup (flat_map f l).
Proof.
  induction l as [|x l IH]; intros N H D; cbn; [constructor|]. inversion N as [|? ? Nx N']; subst.
  assert (APP : forall l1 l2 : list B, NoDup l1 -> NoDup l2 -> (forall z, In z l1 -> In z l2 -> False) -> NoDup (l1 ++ l2)).
  { induction l1 as [|a l1 IH1]; intros l2 N1 N2 Dj; cbn; [exact N2|]. inversion N1; subst. constructor.
    - rewrite in_app_iff. intros [?|?]; [contradiction|]. apply (Dj a); [left; reflexivity|assumption].
    - apply IH1; try assumption. intros z Hz. apply Dj. right. exact Hz. }
  apply APP.
  - apply H. left. reflexivity.
  - apply IH; [exact N'|intros; apply H; right; assumption|].
    intros a b z Ha Hb. apply D; right; assumption.
  - intros z Hz Hz'. apply in_flat_map in Hz'. destruct Hz' as (y & Hy & Hz'). apply Nx.
    rewrite (D x y z); [exact Hy|left; reflexivity|right; exact Hy|exact Hz|exact Hz'].
Qed.
Lemma NoDup_map_inj : forall A B (f : A -> B) l, (forall x y, f x = f y -> x = y) -> NoDup l -> NoDup (map f l).
Proof. intros A B f l H. apply FinFun.Injective_map_NoDup. exact H. Qed.
Lemma step_inj : forall o i j, (0 < o)%nat -> INR i * (1 / INR o) = INR j * (1 / INR o) -> i = j.
Proof.
  intros o i j Ho E. apply INR_eq. assert (H := INR_inv o Ho).
  apply Rmult_eq_reg_r in E; [exact E|]. intros Z. rewrite Z in H. lra.
Qed.
Lemma nodes_distinct : forall s o, has_curved_version s -> (0 < o)%nat -> NoDup (geometry_points (Curvilinear s o)).
Proof.
  intros s o [-> | [-> | ->]] Ho; cbn [geometry_points].
  - apply NoDup_map_inj; [|apply seq_NoDup]. intros i j E. injection E as E. apply (step_inj o); [exact Ho|].
    unfold Rdiv in *. lra.
  - apply NoDup_flat_map; [apply seq_NoDup| |].
    + intros i _. apply NoDup_map_inj; [|apply seq_NoDup]. intros j j' E. injection E as E. apply (step_inj o); assumption.
    + intros i i' z _ _ Hz Hz'. apply in_map_iff in Hz, Hz'. destruct Hz as (j & <- & _), Hz' as (j' & E & _).
      injection E as _ E. symmetry. apply (step_inj o); assumption.
  - apply NoDup_flat_map; [apply seq_NoDup| |].
    + intros k _. apply NoDup_flat_map; [apply seq_NoDup| |].
      * intros i _. apply NoDup_map_inj; [|apply seq_NoDup]. intros j j' E. injection E as E. apply (step_inj o); assumption.
      * intros i i' z _ _ Hz Hz'. apply in_map_iff in Hz, Hz'. destruct Hz as (j & <- & _), Hz' as (j' & E & _).
        injection E as _ E. symmetry. apply (step_inj o); assumption.
    + intros k k' z _ _ Hz Hz'. apply in_flat_map in Hz, Hz'. destruct Hz as (i & _ & Hz), Hz' as (i' & _ & Hz').
      apply in_map_iff in Hz, Hz'. destruct Hz as (j & <- & _), Hz' as (j' & E & _).
      injection E as _ _ E. symmetry. apply (step_inj o); assumption.
Qed.
Lemma nodes_internal : forall s o, has_curved_version s -> (0 < o)%nat ->
  forall p, In p (geometry_points (Curvilinear s o)) -> internal s p.
Proof.
  intros s o Hs Ho p Hp.
  assert (P : 0 < 1 / INR o). { apply Rdiv_lt_0_compat; [lra|]. apply lt_0_INR. exact Ho. }
  assert (E := INR_inv o Ho). set (h := 1 / INR o) in *.
  assert (B : forall i, 0 <= INR i * h) by (intros; apply Rmult_le_pos; [apply pos_INR|lra]).
  assert (U : forall i, (i <= o)%nat -> INR i * h <= 1).
  { intros i Hi. rewrite <- E. apply Rmult_le_compat_r; [lra|]. apply le_INR. exact Hi. }
  destruct Hs as [-> | [-> | ->]]; cbn [geometry_points] in Hp; unfold internal.
  - apply in_line in Hp. destruct Hp as (i & Hi & ->). unfold line_node. cbn. apply f_equal.
    assert (B1 := B i). assert (U1 := U i Hi). replace (2 / INR o) with (2 * h) by (unfold h; field; apply not_0_INR; lia).
    rewrite andb_true_iff, !leb_true. lra.
  - apply in_triangle in Hp. destruct Hp as (i & j & H & ->). cbn. fold h. apply f_equal.
    assert (B1 := B i). assert (B2 := B j). assert (U1 := U (i + j)%nat H). rewrite plus_INR in U1.
    rewrite !andb_true_iff, !leb_true. lra.
  - apply in_tetrahedron in Hp. destruct Hp as (i & j & k & H & ->). cbn. fold h. apply f_equal.
    assert (B1 := B i). assert (B2 := B j). assert (B3 := B k). assert (U1 := U (i + j + k)%nat H).
    rewrite !plus_INR in U1. rewrite !andb_true_iff, !leb_true. lra.
Qed.

(** ** the number of nodes determines the order *)
Lemma lround_INR : forall n, lround (INR n) = Z.of_nat n.
Proof.
  intros n. unfold lround. destruct (Rle_dec 0 (INR n)) as [_|N]; [|exfalso; apply N, pos_INR].
  destruct (base_Int_part (INR n + 1/2)) as [H1 H2]. rewrite INR_IZR_INZ in H1, H2 |- *.
  set (z := Int_part _) in *.
  assert (A : IZR z < IZR (Z.of_nat n + 1)) by (rewrite plus_IZR; lra).
  assert (B : IZR (Z.of_nat n - 1) < IZR z) by (rewrite minus_IZR; lra).
  apply lt_IZR in A, B. lia.
Qed.
Lemma half : forall m, (2 * (m * (m + 1) / 2) = m * (m + 1))%nat.
Proof.
  intros m. assert (H := sum_down m). set (x := list_sum _) in H. rewrite <- H.
  rewrite (Nat.mul_comm 2 x), Nat.div_mul by lia. lia.
Qed.
Lemma triangle_order_complete : forall o, triangle_order ((o + 1) * (o + 2) / 2) = Z.of_nat o.
Proof.
  intros o. set (n := ((o + 1) * (o + 2) / 2)%nat).
  assert (E : (2 * n = (o + 1) * (o + 2))%nat).
  { unfold n. replace (o + 2)%nat with (o + 1 + 1)%nat by lia. apply half. }
  clearbody n. assert (ER : 2 * INR n = (INR o + 1) * (INR o + 2)).
  { apply (f_equal INR) in E. rewrite !mult_INR, !plus_INR in E. cbn in E. lra. }
  unfold triangle_order.
  replace (9 + 8 * (INR n - 1)) with ((2 * INR o + 3) * (2 * INR o + 3)) by nra.
  assert (P := pos_INR o). rewrite sqrt_square by lra.
  replace (- (3/2) + (2 * INR o + 3) / 2) with (INR o) by field. rewrite lround_INR.
  replace ((Z.of_nat o + 2) * (Z.of_nat o + 1) / 2)%Z with (Z.of_nat n); [rewrite Z.eqb_refl; reflexivity|].
  apply Z.div_unique_exact; lia.
Qed.
Lemma triangle_order_sound : forall n o, triangle_order n = Z.of_nat o -> ((o + 1) * (o + 2) / 2 = n)%nat.
Proof.
  intros n o. unfold triangle_order. destruct (Z.eqb_spec ((lround (- (3/2) + sqrt (9 + 8 * (INR n - 1)) / 2) + 2) *
    (lround (- (3/2) + sqrt (9 + 8 * (INR n - 1)) / 2) + 1) / 2) (Z.of_nat n)) as [E|E]; intros H; [|lia].
  rewrite H in E. apply Nat2Z.inj. rewrite <- E. rewrite Nat2Z.inj_div. apply f_equal2; lia.
Qed.
Fixpoint tetra (o : nat) : nat := match o with O => 1 | S o' => tetra o' + (S o' + 1) * (S o' + 2) / 2 end%nat.
Lemma tetra_value : forall o, (6 * tetra o = (o + 1) * (o + 2) * (o + 3))%nat.
Proof.
  induction o as [|o IH]; [reflexivity|]. cbn [tetra].
  assert (E : (2 * ((S o + 1) * (S o + 2) / 2) = (S o + 1) * (S o + 2))%nat).
  { replace (S o + 2)%nat with (S o + 1 + 1)%nat by lia. apply half. }
  set (t := ((S o + 1) * (S o + 2) / 2)%nat) in *. nia.
Qed.
Lemma tetra_div : forall o, ((o + 1) * (o + 2) * (o + 3) / 6)%nat = tetra o.
Proof. intros o. rewrite <- tetra_value. rewrite Nat.mul_comm. apply Nat.div_mul. lia. Qed.
Lemma tetra_step : forall o, (tetra o < tetra (S o))%nat.
Proof. intros o. assert (A := tetra_value o). assert (B := tetra_value (S o)). nia. Qed.
Lemma tetra_mono : forall a b, (a < b)%nat -> (tetra a < tetra b)%nat.
Proof. intros a b H. induction H as [|b H IH]; [apply tetra_step|]. assert (S := tetra_step b). lia. Qed.
Lemma tetra_big : forall o, (o < tetra o)%nat.
Proof. induction o as [|o IH]; [cbn; lia|]. assert (S := tetra_step o). lia. Qed.
Lemma tetrahedron_loop_ok : forall fuel order n, (n < fuel + tetra order)%nat -> (0 < fuel)%nat ->
  (forall k, (k < order)%nat -> tetra k <> n) ->
  exists z, tetrahedron_order_loop fuel (tetra order) order n = Some z /\
    ((exists o, z = Z.of_nat o /\ tetra o = n) \/ (z = (-1)%Z /\ forall o, tetra o <> n)).
Proof.
  assert (STOP : forall order n, (n < tetra order)%nat -> (forall k, (k < order)%nat -> tetra k <> n) -> forall o, tetra o <> n).
  { intros order n Hgt Hk o. destruct (Nat.lt_ge_cases o order) as [L|L]; [apply Hk, L|].
    destruct (Nat.eq_dec order o) as [<-|D]; [lia|]. assert (M := tetra_mono order o ltac:(lia)). lia. }
  induction fuel as [|fuel IH]; intros order n Hf H0 Hk; [lia|]. cbn [tetrahedron_order_loop].
  destruct (Nat.leb_spec (tetra order) n) as [Hle|Hgt].
  - destruct (Nat.eqb_spec (tetra order) n) as [E|E].
    + eexists. split; [reflexivity|]. left. exists order. split; [reflexivity|exact E].
    + change (tetra order + (S order + 1) * (S order + 2) / 2)%nat with (tetra (S order)).
      assert (S' := tetra_step order). apply IH; [lia|lia|].
      intros k Hk'. destruct (Nat.eq_dec k order) as [-> |D]; [exact E|apply Hk; lia].
  - eexists. split; [reflexivity|]. right. split; [reflexivity|]. apply STOP with order; assumption.
Qed.
Lemma tetrahedron_order_ok : forall n, exists z, tetrahedron_order n = Some z /\
  ((exists o, z = Z.of_nat o /\ tetra o = n) \/ (z = (-1)%Z /\ forall o, tetra o <> n)).
Proof. intros n. apply (tetrahedron_loop_ok (S n) 0 n); cbn; lia. Qed.
Lemma tetra_inj : forall a b, tetra a = tetra b -> a = b.
Proof.
  intros a b E. destruct (Nat.lt_total a b) as [L|[L|L]]; [|exact L|]; apply tetra_mono in L; lia.
Qed.

Lemma factory_sound : forall dim n g, getGeometry dim n = Some g ->
  dimension (base g) = dim /\ length (geometry_points g) = n.
Proof.
  intros dim n g H.
  destruct dim as [|[|[|[|[|dim]]]]]; cbn [getGeometry] in H; [| | | | |discriminate H].
  - enum 2%nat n; try discriminate H; injs; split; reflexivity.
  - enum 3%nat n; try discriminate H; injs; try (split; reflexivity).
    cbn in H. injection H as <-. split; [reflexivity|].
    rewrite points_number by (left; reflexivity). cbn. lia.
  - assert (T : forall k, (if (0 <? triangle_order k)%Z then Some (Curvilinear Triangle (Z.to_nat (triangle_order k))) else None) = Some g ->
      dimension (base g) = 2%nat /\ length (geometry_points g) = k).
    { intros k E. destruct (Z.ltb_spec 0 (triangle_order k)) as [L|L]; [|discriminate E]. injection E as <-.
      split; [reflexivity|]. rewrite points_number by (right; left; reflexivity). cbn [expected_number_of_points].
      apply triangle_order_sound. rewrite Z2Nat.id; [reflexivity|lia]. }
    enum 5%nat n; try (injection H as <-; split; reflexivity); apply T in H; exact H.
  - assert (T : forall k, match tetrahedron_order k with
        | Some o => if (0 <? o)%Z then Some (Curvilinear Tetrahedron (Z.to_nat o)) else None | None => None end = Some g ->
      dimension (base g) = 3%nat /\ length (geometry_points g) = k).
    { intros k E. destruct (tetrahedron_order_ok k) as (z & Ez & [(o & -> & Eo)|(-> & _)]); rewrite Ez in E.
      - destruct (Z.ltb_spec 0 (Z.of_nat o)); [|discriminate E]. injection E as <-. rewrite Nat2Z.id.
        split; [reflexivity|]. rewrite points_number by (right; right; reflexivity). cbn [expected_number_of_points].
        rewrite tetra_div. exact Eo.
      - discriminate E. }
    enum 9%nat n; try (injection H as <-; split; reflexivity); apply T in H; exact H.
  - enum 17%nat n; try discriminate H; injection H as <-; split; reflexivity.
Qed.
Lemma factory_complete : forall s o, has_curved_version s -> (2 <= o)%nat ->
  getGeometry (dimension s) (length (geometry_points (Curvilinear s o))) = Some (Curvilinear s o).
Proof.
  intros s o Hs Ho. rewrite points_number by exact Hs. destruct Hs as [-> | [-> | ->]]; cbn [expected_number_of_points dimension].
  - destruct o as [|[|o]]; try lia. replace (S (S o) + 1)%nat with (S (S (S o))) by lia. cbn [getGeometry].
    cbn. reflexivity.
  - assert (E := triangle_order_complete o). set (n := ((o + 1) * (o + 2) / 2)%nat) in *.
    assert (Hn : (5 < n)%nat).
    { unfold n. apply Nat.lt_le_trans with 6%nat; [lia|]. change 6%nat with (12 / 2)%nat. apply Nat.div_le_mono; [lia|nia]. }
    enum 6%nat n; try lia. cbn [getGeometry]. rewrite E.
    destruct (Z.ltb_spec 0 (Z.of_nat o)); [|lia]. rewrite Nat2Z.id. reflexivity.
  - rewrite tetra_div. destruct (tetrahedron_order_ok (tetra o)) as (z & Ez & [(o' & -> & Eo)|(_ & N)]);
      [|exfalso; apply (N o); reflexivity].
    apply tetra_inj in Eo. subst o'.
    assert (Hn : (9 < tetra o)%nat) by (assert (V := tetra_value o); nia).
    set (n := tetra o) in *. clearbody n. enum 9%nat n; try lia. cbn [getGeometry]. rewrite Ez.
    destruct (Z.ltb_spec 0 (Z.of_nat o)); [|lia]. rewrite Nat2Z.id. reflexivity.
Qed.

(** ** the mapping between two orderings of the nodes of a side *)
Lemma corner_moves : forall g m0 v1 v2 b1 b2 p1 p2 id, NoDup (geometry_points g) -> Permutation v1 v2 ->
  length v1 = length (geometry_points g) -> carries_all_nodes g m0 v1 v2 ->
  nth_error (geometry_points g) b1 = Some p1 -> nth_error (geometry_points g) b2 = Some p2 ->
  transform m0 p1 = Some p2 -> nth_error v1 b1 = Some id -> nth_error v2 b2 = Some id.
Proof.
  intros g m0 v1 v2 b1 b2 p1 p2 id N P L C H1 H2 T V.
  assert (Hin : In id v2) by (apply (Permutation_in _ P), nth_error_In with b1; exact V).
  apply In_nth_error in Hin. destruct Hin as (k2 & K2).
  destruct (nth_error_combined _ (geometry_points g) k2) as (q & Hq).
  { rewrite <- L, (Permutation_length P). apply nth_error_Some. congruence. }
  assert (T' := C _ _ _ _ _ V K2 H1 Hq). rewrite T in T'. injection T' as <-.
  assert (E : k2 = b2).
  { apply (proj1 (NoDup_nth_error _) N); [apply nth_error_Some; congruence|congruence]. }
  subst. exact K2.
Qed.
Lemma line_mapping_index : forall o v1 v2 i0 m0, (0 < o)%nat -> INR o <= 10 ^ 8 -> NoDup v1 -> Permutation v1 v2 ->
  length v1 = length (geometry_points (Curvilinear Line o)) -> getCodim0MappingPtr Line i0 = Some m0 ->
  carries_all_nodes (Curvilinear Line o) m0 v1 v2 -> codim0_mapping_index (Curvilinear Line o) v1 v2 = Some i0.
Proof.
  intros o v1 v2 i0 m0 Ho B N P L Hm C. assert (Hs : has_curved_version Line) by (left; reflexivity).
  destruct (base_indices_ok Line o Hs Ho B) as (b & Eb & Lb & Nb). unfold codim0_mapping_index. rewrite Eb.
  destruct b as [|b0 [|b1 [|]]]; try discriminate Lb.
  assert (P0 := Nb 0%nat _ _ eq_refl eq_refl). assert (P1 := Nb 1%nat _ _ eq_refl eq_refl).
  assert (D := nodes_distinct Line o Hs Ho).
  assert (M := corner_moves (Curvilinear Line o) m0 v1 v2). 
  assert (X : forall k q, nth_error (geometry_points (Curvilinear Line o)) k = Some q -> exists id, nth_error v1 k = Some id).
  { intros k q E. apply nth_error_combined. rewrite L. apply nth_error_Some. congruence. }
  destruct (X _ _ P0) as (a0 & A0), (X _ _ P1) as (a1 & A1).
  assert (D01 : a0 <> a1).
  { intros E. subst a1. assert (b0 = b1).
    { apply (proj1 (NoDup_nth_error _) N); [apply nth_error_Some; congruence|congruence]. }
    subst. rewrite P0 in P1. injection P1 as E. lra. }
  enum 3%nat i0; cbn in Hm; try discriminate Hm; injs.
  - assert (C0 := M _ _ _ _ _ D P L C P0 P0 ltac:(cbn; point_eq ltac:(ring)) A0).
    assert (C1 := M _ _ _ _ _ D P L C P1 P1 ltac:(cbn; point_eq ltac:(ring)) A1).
    cbn [select]. rewrite A0, A1, C0, C1. cbn. rewrite Nat.eqb_refl. reflexivity.
  - assert (C0 := M _ _ _ _ _ D P L C P0 P1 ltac:(cbn; point_eq ltac:(ring)) A0).
    assert (C1 := M _ _ _ _ _ D P L C P1 P0 ltac:(cbn; point_eq ltac:(ring)) A1).
    cbn [select]. rewrite A0, A1, C0, C1. cbn. destruct (Nat.eqb_spec a0 a1); [contradiction|reflexivity].
Qed.
Lemma triangle_mapping_index : forall o v1 v2 i0 m0, (0 < o)%nat -> INR o <= 10 ^ 8 -> NoDup v1 -> Permutation v1 v2 ->
  length v1 = length (geometry_points (Curvilinear Triangle o)) -> getCodim0MappingPtr Triangle i0 = Some m0 ->
  carries_all_nodes (Curvilinear Triangle o) m0 v1 v2 -> codim0_mapping_index (Curvilinear Triangle o) v1 v2 = Some i0.
Proof.
  intros o v1 v2 i0 m0 Ho B N P L Hm C. assert (Hs : has_curved_version Triangle) by (right; left; reflexivity).
  destruct (base_indices_ok Triangle o Hs Ho B) as (b & Eb & Lb & Nb). unfold codim0_mapping_index. rewrite Eb.
  destruct b as [|b0 [|b1 [|b2 [|]]]]; try discriminate Lb.
  assert (P0 := Nb 0%nat _ _ eq_refl eq_refl). assert (P1 := Nb 1%nat _ _ eq_refl eq_refl).
  assert (P2 := Nb 2%nat _ _ eq_refl eq_refl).
  assert (D := nodes_distinct Triangle o Hs Ho).
  assert (M := corner_moves (Curvilinear Triangle o) m0 v1 v2).
  assert (X : forall k q, nth_error (geometry_points (Curvilinear Triangle o)) k = Some q -> exists id, nth_error v1 k = Some id).
  { intros k q E. apply nth_error_combined. rewrite L. apply nth_error_Some. congruence. }
  destruct (X _ _ P0) as (a0 & A0), (X _ _ P1) as (a1 & A1), (X _ _ P2) as (a2 & A2).
  assert (Dif : forall i j a p q, nth_error (geometry_points (Curvilinear Triangle o)) i = Some p ->
    nth_error (geometry_points (Curvilinear Triangle o)) j = Some q -> p <> q -> nth_error v1 i = Some a ->
    nth_error v1 j = Some a -> False).
  { intros i j a p q Hp Hq Npq Hi Hj. apply Npq. assert (i = j).
    { apply (proj1 (NoDup_nth_error _) N); [apply nth_error_Some; congruence|congruence]. }
    subst. congruence. }
  assert (D01 : a0 <> a1) by (intros ->; refine (Dif _ _ _ _ _ P0 P1 _ A0 A1); intros E; injection E; intros; lra).
  assert (D02 : a0 <> a2) by (intros ->; refine (Dif _ _ _ _ _ P0 P2 _ A0 A2); intros E; injection E; intros; lra).
  assert (D12 : a1 <> a2) by (intros ->; refine (Dif _ _ _ _ _ P1 P2 _ A1 A2); intros E; injection E; intros; lra).
  Ltac moves M D P L C Hp A := first
    [match goal with Q : nth_error (geometry_points _) _ = Some _ |- _ =>
       let H := fresh in assert (H := M _ _ _ _ _ D P L C Hp Q ltac:(cbn; point_eq ltac:(ring)) A) end].
  enum 7%nat i0; cbn in Hm; try discriminate Hm; injs;
    moves M D P L C P0 A0; moves M D P L C P1 A1; moves M D P L C P2 A2;
    cbn [select]; rewrite A0, A1, A2; 
    repeat match goal with H : nth_error v2 _ = Some _ |- _ => rewrite H; clear H end; cbn;
    rewrite ?Nat.eqb_refl;
    repeat match goal with |- context[(?a =? ?b)%nat] => destruct (Nat.eqb_spec a b); try congruence end; reflexivity.
Qed.
