From Coq Require Import List Arith Bool Lia Permutation Reals Lra.
From Verif Require Import Matrix_model Matrix_spec Derivative RefGeometry_model RefGeometry_spec.
Import ListNotations.
Local Open Scope R_scope.

Lemma cons_eq : forall A (a b : A) l m, a = b -> l = m -> a :: l = b :: m.
Proof. intros; subst; reflexivity. Qed.
Ltac point_eq tac := lazymatch goal with
  | |- Some _ = Some _ => apply f_equal; point_eq tac
  | |- _ :: _ = _ :: _ => apply cons_eq; [tac | point_eq tac]
  | |- [] = [] => reflexivity
  end.

Lemma leb_true : forall x y, leb x y = true <-> x <= y.
Proof. intros x y. unfold leb. destruct (Rle_dec x y); split; intros; try easy. Qed.
Lemma leb_false : forall x y, leb x y = false <-> y < x.
Proof. intros x y. unfold leb. destruct (Rle_dec x y); split; intros; try easy; lra. Qed.

(** one goal for each of the values 0 .. 8 and one for the larger ones *)
Ltac enum n f := lazymatch n with O => idtac | S ?n' => destruct f as [|f]; [ | enum n' f] end.
(** one goal per face *)
Ltac each_face s f H :=
  destruct s; enum 9%nat f; cbn in H; try discriminate H.
Ltac injs := repeat match goal with H : Some _ = Some _ |- _ => injection H; clear H; intros; subst end.


Lemma faces_complete : forall s f,
  match getCodim1MappingPtr s f, getCodim1ReferenceGeometry s f, getCodim1EntityLocalIndices s f with
  | Some _, Some fs, Some ns =>
      S (dimension fs) = dimension s /\ length ns = length (points fs) /\ NoDup ns /\
      forall n, In n ns -> (n < length (points s))%nat
  | None, None, None => True
  | _, _, _ => False
  end.
Proof.
  intros s f. destruct s; enum 9%nat f; cbn; try exact I;
    (split; [reflexivity|split; [reflexivity|split]]);
    try (repeat (apply NoDup_cons; [cbn [In]; lia|]); apply NoDup_nil);
    (cbn [In]; intros n H; lia).
Qed.

Lemma face_nodes : forall s f m fs ns, the_face s f m fs ns ->
  forall k p i, nth_error (points fs) k = Some p -> nth_error ns k = Some i ->
  exists q, nth_error (points s) i = Some q /\ transform m p = Some q.
Proof.
  intros s f m fs ns (Hm & Hf & Hn) k p i Hp Hi.
  each_face s f Hm; cbn in Hm, Hf, Hn; injs;
    enum 9%nat k; cbn in Hp, Hi; try discriminate Hp; try discriminate Hi; injs;
    (eexists; split; [reflexivity|]; cbn; point_eq lra).
Qed.

Ltac points_of_dim := repeat match goal with
  | H : S _ = S _ |- _ => apply eq_add_S in H
  | H : length ?p = 0%nat |- _ => is_var p; destruct p; [clear H|discriminate H]
  | H : length ?p = S _ |- _ => is_var p; destruct p; [discriminate H | cbn [length] in H]
  | H : 0%nat = 0%nat |- _ => clear H
  end.

Ltac conjs := repeat match goal with
  | H : _ && _ = true |- _ => apply andb_true_iff in H; destruct H
  | H : leb _ _ = true |- _ => apply leb_true in H
  | H : leb _ _ = false |- _ => apply leb_false in H
  | H : _ && _ = false |- _ => apply andb_false_iff in H; destruct H
  end.

Lemma internal_length : forall s p b, isInternalPoint s p = Some b -> length p = dimension s.
Proof. intros s p b H. destruct s, p as [|x [|y [|z [|w [|v p]]]]]; cbn in H; try discriminate; reflexivity. Qed.

Lemma face_defined : forall s f m fs ns, the_face s f m fs ns ->
  forall p, length p = dimension fs -> exists q, transform m p = Some q /\ length q = dimension s.
Proof.
  intros s f m fs ns (Hm & Hf & Hn) p Hp.
  each_face s f Hm; cbn in Hm, Hf, Hn; injs; cbn [dimension] in Hp; points_of_dim; eexists; split; reflexivity.
Qed.

Ltac split_abs := repeat match goal with
  | H : context[Rabs ?x] |- _ =>
      lazymatch goal with h : - Rabs x <= x <= Rabs x |- _ => fail | _ =>
        assert (- Rabs x <= x <= Rabs x) by (unfold Rabs; destruct (Rcase_abs x); lra) end
  end.

(** the interpolating functions of the nodes of a face *)
Definition weights (s : shape) (p : point) : list R :=
  match s, p with
  | Point, [] => [1]
  | Line, [x] => [(1-x)/2; (1+x)/2]
  | Triangle, [x;y] => [1-x-y; x; y]
  | Square, [x;y] => [(1-x)*(1-y)/4; (1+x)*(1-y)/4; (1-x)*(1+y)/4; (1+x)*(1+y)/4]
  | Cube, [x;y;z] =>
      [(1-x)*(1-y)*(1-z)/8; (1+x)*(1-y)*(1-z)/8; (1-x)*(1+y)*(1-z)/8; (1+x)*(1+y)*(1-z)/8;
       (1-x)*(1-y)*(1+z)/8; (1+x)*(1-y)*(1+z)/8; (1-x)*(1+y)*(1+z)/8; (1+x)*(1+y)*(1+z)/8]
  | _, _ => []
  end.
Definition is_face_shape (s : shape) : Prop :=
  match s with Point | Line | Triangle | Square | Cube => True | _ => False end.
Lemma face_shapes : forall s f m fs ns, the_face s f m fs ns -> is_face_shape fs.
Proof. intros s f m fs ns (Hm & Hf & Hn). each_face s f Hm; cbn in Hf; injs; exact I. Qed.

Ltac nonneg := repeat apply Rmult_le_pos; lra.
Lemma weights_nonneg : forall s p, internal s p -> forall w, In w (weights s p) -> 0 <= w.
Proof.
  unfold internal. intros s p H w Hw. assert (L := internal_length _ _ _ H).
  destruct s; cbn [dimension] in L; points_of_dim; cbn in H; try injection H as H; conjs; cbn in Hw;
    intuition (subst; try nonneg; unfold Rdiv; nonneg).
Qed.
Lemma weights_sum : forall s p, is_face_shape s -> length p = dimension s -> sum (weights s p) = 1.
Proof.
  intros s p F L. destruct s; try contradiction; cbn [dimension] in L; points_of_dim; cbn; field.
Qed.
Lemma weights_length : forall s p, is_face_shape s -> length p = dimension s ->
  length (weights s p) = length (points s).
Proof.
  intros s p F L. destruct s; try contradiction; cbn [dimension] in L; points_of_dim; reflexivity.
Qed.

Lemma face_weights : forall s f m fs ns, the_face s f m fs ns ->
  forall p q, transform m p = Some q -> length p = dimension fs ->
  forall i, (i < length q)%nat ->
  nth i q 0 = sum (map (fun wq => fst wq * nth i (snd wq) 0)
    (combine (weights fs p) (map (fun n => nth n (points s) []) ns))).
Proof.
  intros s f m fs ns (Hm & Hf & Hn) p q Hq Lp i Hi.
  each_face s f Hm; cbn in Hf, Hn; injs; cbn [dimension] in Lp; points_of_dim;
    cbn in Hq; injs; cbn [length] in Hi; enum 4%nat i; cbn [length] in Hi; try lia; cbn; field.
Qed.

Lemma points_length : forall s q, In q (points s) -> length q = dimension s.
Proof. intros s q H. destruct s; cbn in H; intuition (subst; reflexivity). Qed.

Lemma face_average : forall s f m fs ns, the_face s f m fs ns ->
  forall p q, internal fs p -> transform m p = Some q ->
  is_average q (map (fun n => nth n (points s) []) ns).
Proof.
  intros s f m fs ns H p q Hp Hq.
  assert (Lp := internal_length _ _ _ Hp). assert (F := face_shapes _ _ _ _ _ H).
  destruct (face_defined _ _ _ _ _ H p Lp) as (q' & E & Lq). rewrite E in Hq. injection Hq as ->.
  assert (C := faces_complete s f). destruct H as (Hm & Hf & Hn) eqn:EH. rewrite Hm, Hf, Hn in C.
  destruct C as (_ & Ln & _ & C).
  exists (weights fs p). split; [|split; [|split; [|split]]].
  - rewrite map_length, Ln. apply weights_length; assumption.
  - apply weights_nonneg. exact Hp.
  - apply weights_sum; assumption.
  - intros r Hr. apply in_map_iff in Hr. destruct Hr as (n & <- & Hr). rewrite Lq.
    apply points_length, nth_In, C, Hr.
  - apply (face_weights s f m fs ns); assumption.
Qed.

(** ** boundary *)
Lemma Rabs_cases : forall x, (0 <= x /\ Rabs x = x) \/ (x < 0 /\ Rabs x = - x).
Proof. intros x. unfold Rabs. destruct (Rcase_abs x); [right|left]; lra. Qed.
Ltac abs_case x :=
  let E := fresh in destruct (Rabs_cases x) as [[? E]|[? E]]; try rewrite E in *; clear E.
Ltac abs_cases := repeat match goal with
  | H : context[Rabs ?x] |- _ => abs_case x
  | |- context[Rabs ?x] => abs_case x
  end.

Lemma internal_bool : forall s p, length p = dimension s -> exists b, isInternalPoint s p = Some b.
Proof. intros s p L. destruct s; cbn [dimension] in L; points_of_dim; cbn; eexists; reflexivity. Qed.

Ltac not_internal := let H := fresh in intros H; unfold internal in H; cbn in H; try injection H as H; conjs; abs_cases; lra.
Lemma outside : forall s q, length q = dimension s -> ~ internal s q -> isInternalPoint s q = Some false.
Proof.
  intros s q L H. destruct (internal_bool s q L) as [[|] E]; [contradiction|exact E].
Qed.
Ltac close := intros i Hi; cbn [length] in Hi; enum 4%nat i; try lia; cbn [nth]; abs_cases; lra.
Ltac try_point q := exists q; split; [apply outside; [reflexivity|not_internal] | split; [reflexivity|close]].

Lemma face_internal : forall s f m fs ns, the_face s f m fs ns ->
  forall p q, internal fs p -> transform m p = Some q -> internal s q.
Proof.
  unfold internal. intros s f m fs ns (Hm & Hf & Hn) p q Hp Hq.
  assert (Lp := internal_length _ _ _ Hp).
  each_face s f Hm; cbn in Hf, Hn; injs; cbn [dimension] in Lp; points_of_dim;
    cbn in Hq; injs; cbn in Hp; try injection Hp as Hp; conjs; cbn; apply f_equal;
    repeat (apply andb_true_iff; split); apply leb_true; abs_cases; lra.
Qed.

Lemma face_boundary : forall s f m fs ns, the_face s f m fs ns ->
  forall p q, internal fs p -> transform m p = Some q -> on_boundary s q.
Proof.
  intros s f m fs ns H p q Hp Hq. split; [eapply face_internal; eassumption|].
  intros eps He. destruct H as (Hm & Hf & Hn). unfold internal in Hp.
  assert (Lp := internal_length _ _ _ Hp).
  each_face s f Hm; cbn in Hf, Hn; injs; cbn [dimension] in Lp; points_of_dim;
    cbn in Hq; injs; cbn in Hp; try injection Hp as Hp; conjs;
    match goal with |- exists q, _ /\ _ = length ?r /\ _ => 
      lazymatch r with
      | [?x] => first [try_point [x + eps] | try_point [x - eps]]
      | [?x; ?y] => first [try_point [x + eps; y] | try_point [x - eps; y] | try_point [x; y + eps] | try_point [x; y - eps]]
      | [?x; ?y; ?z] => first [try_point [x + eps; y; z] | try_point [x - eps; y; z] | try_point [x; y + eps; z] | try_point [x; y - eps; z]
          | try_point [x; y; z + eps] | try_point [x; y; z - eps]]
      | [?x; ?y; ?z; ?w] => first [try_point [x + eps; y; z; w] | try_point [x - eps; y; z; w] | try_point [x; y + eps; z; w] | try_point [x; y - eps; z; w]
          | try_point [x; y; z + eps; w] | try_point [x; y; z - eps; w] | try_point [x; y; z; w + eps] | try_point [x; y; z; w - eps]]
      end
    end.
Qed.

Lemma small_number : forall l, (forall x, In x l -> 0 < x) -> exists e, 0 < e /\ forall x, In x l -> e <= x.
Proof.
  induction l as [|a l IH]; intros H.
  - exists 1. split; [lra|intros x []].
  - destruct IH as (e & He & Hl); [intros x Hx; apply H; right; exact Hx|].
    assert (0 < a) by (apply H; left; reflexivity).
    exists (Rmin a e). split; [apply Rmin_glb_lt; assumption|].
    intros x [<-|Hx]; [apply Rmin_l|]. eapply Rle_trans; [apply Rmin_r|apply Hl, Hx].
Qed.

(** [q] is on face [f], at the point [p] of the face *)
Ltac on_face f p := 
  exists f; do 3 eexists; exists p; split; [split; [reflexivity|split; reflexivity]|split;
    [unfold internal; cbn; try apply f_equal; repeat (apply andb_true_iff; split); try apply leb_true; try reflexivity; abs_cases; lra
    |cbn; point_eq ltac:(abs_cases; lra)]].
(** or not: then the next inequality *)
Ltac next_face e f p := destruct (Req_dec e 0) as [?|?]; [on_face f p|].
(** all inequalities are strict: no outside points close by *)
Ltac all_strict H slacks :=
  exfalso; destruct (small_number slacks) as (eps & Heps & Hle);
  [cbn [In]; intros ? Hin; repeat destruct Hin as [<-|Hin]; [..|contradiction Hin]; abs_cases; lra|];
  let q' := fresh "q" in let Hout := fresh in let L := fresh in let Hd := fresh in
  destruct (H eps Heps) as (q' & Hout & L & Hd); cbn [length] in L, Hd; points_of_dim;
  let bound i := (try (let K := fresh in assert (K := Hd i ltac:(lia)); cbn [nth] in K)) in
  bound 0%nat; bound 1%nat; bound 2%nat; bound 3%nat;
  repeat match type of Hle with forall x, In x (?a :: ?l) -> _ =>
    let K := fresh in assert (K := Hle a (or_introl eq_refl));
    let K' := fresh in assert (K' : forall x, In x l -> eps <= x) by (intros; apply Hle; right; assumption);
    clear Hle; rename K' into Hle end;
  cbn in Hout; injection Hout as Hout; conjs; abs_cases; lra.
Arguments Rabs : simpl never.

Ltac begin_cover := let q := fresh "q" in let Hi := fresh in let H := fresh "Hclose" in
  intros q [Hi H]; unfold internal in Hi;
  let L := fresh in assert (L := internal_length _ _ _ Hi); cbn [dimension] in L; points_of_dim;
  cbn in Hi; injection Hi as Hi; conjs.

Lemma cover_Line : forall q, on_boundary Line q -> covered Line q.
Proof.
  begin_cover. rename r into x.
  next_face (x + 1) 0%nat (@nil R). next_face (x - 1) 1%nat (@nil R).
  all_strict Hclose [(1 + x)/2; (1 - x)/2].
Qed.
Lemma cover_Triangle : forall q, on_boundary Triangle q -> covered Triangle q.
Proof.
  begin_cover. rename r into x, r0 into y.
  next_face y 0%nat [2*x - 1]. next_face x 1%nat [2*y - 1]. next_face (1 - x - y) 2%nat [2*y - 1].
  all_strict Hclose [x/2; y/2; (1 - x - y)/4].
Qed.
Lemma cover_Square : forall q, on_boundary Square q -> covered Square q.
Proof.
  begin_cover. rename r into x, r0 into y.
  next_face (y + 1) 0%nat [x]. next_face (x + 1) 1%nat [y]. next_face (x - 1) 2%nat [y]. next_face (y - 1) 3%nat [x].
  all_strict Hclose [(1 + x)/2; (1 - x)/2; (1 + y)/2; (1 - y)/2].
Qed.
Lemma cover_Tetrahedron : forall q, on_boundary Tetrahedron q -> covered Tetrahedron q.
Proof.
  begin_cover. rename r into x, r0 into y, r1 into z.
  next_face x 0%nat [z; y]. next_face y 1%nat [x; z]. next_face z 2%nat [y; x]. next_face (1 - x - y - z) 3%nat [y; z].
  all_strict Hclose [x/2; y/2; z/2; (1 - x - y - z)/8].
Qed.
Lemma cover_Pyramid : forall q, on_boundary Pyramid q -> covered Pyramid q.
Proof.
  begin_cover. rename r into x, r0 into y, r1 into z.
  next_face z 0%nat [x; -y]. next_face (1 - z + x) 1%nat [(1 - y - z)/2; z]. next_face (1 - z - x) 2%nat [(1 + y - z)/2; z].
  next_face (1 - z + y) 3%nat [(1 + x - z)/2; z]. next_face (1 - z - y) 4%nat [(1 - x - z)/2; z].
  all_strict Hclose [z/2; (1 - z - x)/4; (1 - z + x)/4; (1 - z - y)/4; (1 - z + y)/4].
Qed.
Lemma cover_TriangularPrism : forall q, on_boundary TriangularPrism q -> covered TriangularPrism q.
Proof.
  begin_cover. rename r into x, r0 into y, r1 into z.
  next_face (z + 1) 0%nat [y; x]. next_face (z - 1) 1%nat [x; y]. next_face x 2%nat [1 - 2*y; z].
  next_face y 3%nat [2*x - 1; z]. next_face (1 - x - y) 4%nat [2*y - 1; z].
  all_strict Hclose [x/2; y/2; (1 - x - y)/4; (1 + z)/2; (1 - z)/2].
Qed.
Lemma cover_Cube : forall q, on_boundary Cube q -> covered Cube q.
Proof.
  begin_cover. rename r into x, r0 into y, r1 into z.
  next_face (z + 1) 0%nat [x; y]. next_face (y + 1) 1%nat [x; z]. next_face (x + 1) 2%nat [y; z].
  next_face (x - 1) 3%nat [y; z]. next_face (y - 1) 4%nat [x; z]. next_face (z - 1) 5%nat [x; y].
  all_strict Hclose [(1 + x)/2; (1 - x)/2; (1 + y)/2; (1 - y)/2; (1 + z)/2; (1 - z)/2].
Qed.
Lemma cover_Hypercube : forall q, on_boundary Hypercube q -> covered Hypercube q.
Proof.
  begin_cover. rename r into x, r0 into y, r1 into z, r2 into w.
  next_face (w + 1) 0%nat [x; y; z]. next_face (z + 1) 1%nat [x; y; w]. next_face (y + 1) 2%nat [x; z; w].
  next_face (x + 1) 3%nat [y; z; w]. next_face (x - 1) 4%nat [y; z; w]. next_face (y - 1) 5%nat [x; z; w].
  next_face (z - 1) 6%nat [x; y; w]. next_face (w - 1) 7%nat [x; y; z].
  all_strict Hclose [(1 + x)/2; (1 - x)/2; (1 + y)/2; (1 - y)/2; (1 + z)/2; (1 - z)/2; (1 + w)/2; (1 - w)/2].
Qed.
Lemma faces_cover : forall s q, on_boundary s q -> covered s q.
Proof.
  intros [| | | | | | | |].
  - intros q [Hi H]. destruct (H 1 Rlt_0_1) as (r & Hr & _). destruct r; discriminate.
  - exact cover_Line.
  - exact cover_Triangle.
  - exact cover_Square.
  - exact cover_Tetrahedron.
  - exact cover_Pyramid.
  - exact cover_TriangularPrism.
  - exact cover_Cube.
  - exact cover_Hypercube.
Qed.

Lemma face_injective : forall s f m fs ns, the_face s f m fs ns ->
  forall p p' q, transform m p = Some q -> transform m p' = Some q -> p = p'.
Proof.
  intros s f m fs ns (Hm & Hf & Hn) p p' q Hp Hp'.
  each_face s f Hm; cbn in Hf, Hn; injs;
    destruct p as [|x [|y [|z [|w p]]]]; cbn in Hp; try discriminate Hp;
    destruct p' as [|x' [|y' [|z' [|w' p']]]]; cbn in Hp'; try discriminate Hp';
    rewrite <- Hp in Hp'; try (injection Hp'; intros); point_eq lra.
Qed.

Ltac matrix_entries l :=
  exists l; split; [split; [reflexivity|split; [reflexivity|split; [reflexivity|intros i j; enum 4%nat i; enum 4%nat j; reflexivity]]]|].
Definition entry (J : matrix R) (i j : nat) : R := nth (i + j * nrows J) (data J) 0.
Lemma jacobian_by_entries : forall F n m p J, nrows J = m -> ncols J = n -> length (data J) = (m * n)%nat ->
  (forall i j, (i < m)%nat -> (j < n)%nat ->
    derivable_pt_lim (fun t => coordinate (F (with_coordinate p j t)) i) (nth j p 0) (entry J i j)) ->
  is_jacobian F n m p J.
Proof.
  intros F n m p J Hr Hc Hl H. exists (entry J). split; [|exact H].
  unfold is_matrix. split; [exact Hr|]. split; [exact Hc|].
  split; [unfold wf; rewrite Hl, Hr, Hc; reflexivity|].
  intros i j. unfold mget. rewrite Hr, Hc.
  destruct (Nat.ltb_spec i m) as [Hi|Hi]; [|reflexivity].
  destruct (Nat.ltb_spec j n) as [Hj|Hj]; [|reflexivity].
  cbn [andb]. unfold entry. rewrite Hr. apply nth_error_nth'. rewrite Hl. nia.
Qed.
Ltac jacobian := apply jacobian_by_entries; [reflexivity|reflexivity|reflexivity|
    let i := fresh in let j := fresh in let Hi := fresh in let Hj := fresh in
    intros i j Hi Hj; enum 4%nat i; try lia; enum 4%nat j; try lia; clear Hi Hj; cbn; derive].

Lemma face_jacobian : forall s f m fs ns, the_face s f m fs ns ->
  forall p, length p = dimension fs ->
  exists J, calcJacobian m p = Some J /\ is_jacobian (transform m) (dimension fs) (dimension s) p J.
Proof.
  intros s f m fs ns (Hm & Hf & Hn) p Lp.
  each_face s f Hm; cbn in Hf, Hn; injs; cbn [dimension] in Lp; points_of_dim;
    (eexists; split; [reflexivity|]); cbn [dimension]; try jacobian.
Qed.

(** ** mappings of a face to itself *)
Lemma list_of_length : forall A (l : list A) n, length l = S n -> exists x r, l = x :: r /\ length r = n.
Proof. intros A [|x r] n H; [discriminate|]. exists x, r. split; [reflexivity|]. injection H. auto. Qed.
Ltac names_of_length H := repeat (let x := fresh "b" in let r := fresh "r" in apply list_of_length in H;
  destruct H as (x & r & -> & H)); match type of H with length ?r = 0%nat => destruct r; [clear H|discriminate H] end.

Ltac neq_names := repeat match goal with
  | H : NoDup [] |- _ => clear H
  | H : NoDup (_ :: _) |- _ => let N := fresh in inversion H as [|? ? N ?]; subst; clear H; cbn [In] in N
  | H : ~ (_ \/ _) |- _ => apply Decidable.not_or in H; destruct H
  | H : ~ False |- _ => clear H
  end.
Ltac eqbs := repeat (rewrite Nat.eqb_refl || match goal with
  | H : ?a <> ?b |- context[(?a =? ?b)%nat] => rewrite (proj2 (Nat.eqb_neq a b) H)
  | H : ?b <> ?a |- context[(?a =? ?b)%nat] => rewrite (proj2 (Nat.eqb_neq a b) (not_eq_sym H))
  end).
Lemma some_inj : forall A (a b : A), Some a = Some b -> a = b.
Proof. intros A a b H. injection H. auto. Qed.
(** [carries_nodes] for concrete orderings *)
Ltac carry := let k1 := fresh in let k2 := fresh in
  intros k1 k2 id p1 p2 E1 E2 F1 F2;
  enum 5%nat k1; cbn in E1, F1; try discriminate E1; try discriminate F1;
  enum 5%nat k2; cbn in E2, F2; try discriminate E2; try discriminate F2;
  apply some_inj in E1, E2; subst; try congruence;
  injection F1 as <-; injection F2 as <-; cbn; point_eq lra.
Lemma same_members : forall (l1 l2 : list nat), Permutation l1 l2 -> (forall x, In x l1 -> In x l2) /\ length l2 = length l1.
Proof.
  intros l1 l2 P. split; [intros x; apply Permutation_in, P|symmetry; apply Permutation_length, P].
Qed.
(** where the names of the first ordering are in the second *)
Ltac place P a := let H := fresh in assert (H := proj1 (same_members _ _ P) a ltac:(cbn; tauto));
  cbn [In] in H; repeat destruct H as [H|H]; try contradiction H; subst; try congruence.

Lemma line_index : forall a b l2, NoDup [a; b] -> Permutation [a; b] l2 ->
  exists i m, getCodim0MappingIndex Line [a; b] l2 = Some i /\ getCodim0MappingPtr Line i = Some m /\
    carries_nodes Line m [a; b] l2.
Proof.
  intros a b l2 N P. destruct (same_members _ _ P) as [_ L]. cbn [length] in L. names_of_length L.
  assert (N2 := Permutation_NoDup P N). neq_names. place P a; place P b; cbn; eqbs;
  (do 2 eexists; split; [reflexivity|split; [reflexivity|]]); carry.
Qed.
Lemma triangle_index : forall a b c l2, NoDup [a; b; c] -> Permutation [a; b; c] l2 ->
  exists i m, getCodim0MappingIndex Triangle [a; b; c] l2 = Some i /\ getCodim0MappingPtr Triangle i = Some m /\
    carries_nodes Triangle m [a; b; c] l2.
Proof.
  intros a b c l2 N P. destruct (same_members _ _ P) as [_ L]. cbn [length] in L. names_of_length L.
  assert (N2 := Permutation_NoDup P N). neq_names. place P a; place P b; place P c; cbn; eqbs;
  (do 2 eexists; split; [reflexivity|split; [reflexivity|]]); carry.
Qed.
Lemma affine_equations : forall s l1 l2, affinely_related s l1 l2 -> exists a b c d e f,
  forall k1 k2 id x y p2, nth_error l1 k1 = Some id -> nth_error l2 k2 = Some id ->
  nth_error (points s) k1 = Some [x; y] -> nth_error (points s) k2 = Some p2 ->
  p2 = [a*x + b*y + e; c*x + d*y + f].
Proof.
  intros s l1 l2 (a & b & c & d & e & f & H). exists a, b, c, d, e, f.
  intros k1 k2 id x y p2 H1 H2 H3 H4. specialize (H k1 k2 id [x; y] p2 H1 H2 H3 H4). cbn in H. congruence.
Qed.
Ltac use_affine H k1 := let K := fresh in
  first [assert (K := H k1 0%nat _ _ _ _ eq_refl eq_refl eq_refl eq_refl)
       |assert (K := H k1 1%nat _ _ _ _ eq_refl eq_refl eq_refl eq_refl)
       |assert (K := H k1 2%nat _ _ _ _ eq_refl eq_refl eq_refl eq_refl)
       |assert (K := H k1 3%nat _ _ _ _ eq_refl eq_refl eq_refl eq_refl)]; injection K; clear K; intros.
Lemma square_index : forall a b c d l2, NoDup [a; b; c; d] -> Permutation [a; b; c; d] l2 ->
  affinely_related Square [a; b; c; d] l2 ->
  exists i m, getCodim0MappingIndex Square [a; b; c; d] l2 = Some i /\ getCodim0MappingPtr Square i = Some m /\
    ((i <> 1 /\ i <> 3)%nat -> carries_nodes Square m [a; b; c; d] l2) /\
    ((i = 1 \/ i = 3)%nat -> carries_nodes Square m l2 [a; b; c; d]).
Proof.
  intros a b c d l2 N P A. destruct (same_members _ _ P) as [_ L]. cbn [length] in L. names_of_length L.
  assert (N2 := Permutation_NoDup P N). neq_names. apply affine_equations in A.
  destruct A as (u & v & w & t & e & f & A).
  place P a; place P b; place P c; place P d;
  try (exfalso; use_affine A 0%nat; use_affine A 1%nat; use_affine A 2%nat; use_affine A 3%nat; clear A; lra);
  clear A; cbn; eqbs;
  (do 2 eexists; split; [reflexivity|split; [reflexivity|split]]); try (intros [? ?]; congruence);
  intros _; carry.
Qed.

Ltac each_map s i H :=
  destruct s; enum 9%nat i; cbn in H; try discriminate H.
Lemma codim0_bijection : forall s i m, getCodim0MappingPtr s i = Some m ->
  exists j m', getCodim0MappingPtr s j = Some m' /\ bijection_of_face s m m'.
Proof.
  intros s i m H.
  each_map s i H; injs;
    let finish j := (exists j; eexists; split; [reflexivity|]; unfold bijection_of_face, internal; cbn [dimension];
      intros p L; points_of_dim; cbn; eexists; split; [reflexivity|split; [cbn; point_eq lra|]];
      split; intros HH; try injection HH as HH; conjs; cbn; try apply f_equal;
      repeat (apply andb_true_iff; split); try apply leb_true; try reflexivity; lra) in
    first [finish 0%nat | finish 1%nat | finish 2%nat | finish 3%nat | finish 4%nat | finish 5%nat | finish 6%nat | finish 7%nat].
Qed.
Lemma codim0_jacobian : forall s i m, getCodim0MappingPtr s i = Some m ->
  forall p, length p = dimension s ->
  exists J, calcJacobian m p = Some J /\ is_jacobian (transform m) (dimension s) (dimension s) p J.
Proof.
  intros s i m H p L.
  each_map s i H; injs; cbn [dimension] in L; points_of_dim;
    (eexists; split; [reflexivity|]); cbn [dimension]; jacobian.
Qed.

Lemma edges_ok : forall e m, LineToTetrahedron e = Some m ->
  (forall k p i, nth_error (points Line) k = Some p ->
    forall ns, getCodim2EntityLocalIndices Tetrahedron e = Some ns -> nth_error ns k = Some i ->
    exists q, nth_error (points Tetrahedron) i = Some q /\ transform m p = Some q) /\
  (forall p, length p = 1%nat -> exists J, calcJacobian m p = Some J /\ is_jacobian (transform m) 1 3 p J).
Proof.
  intros e m H. split.
  - intros k p i Hp ns Hn Hi. enum 7%nat e; cbn in H; try discriminate H; injs; cbn in Hn; injs;
      enum 3%nat k; cbn in Hp, Hi; try discriminate Hp; injs; (eexists; split; [reflexivity|]; cbn; point_eq lra).
  - intros p L. enum 7%nat e; cbn in H; try discriminate H; injs; points_of_dim;
      (eexists; split; [reflexivity|]); jacobian.
Qed.
(** every edge joins two different nodes and lies on exactly two faces *)
Definition on_face_b (s : shape) (ns : list nat) (f : nat) : bool :=
  match getCodim1EntityLocalIndices s f with
  | Some fn => forallb (fun n => existsb (Nat.eqb n) fn) ns
  | None => false
  end.
Lemma on_face_iff : forall s ns f, on_face_b s ns f = true <-> lies_on_face s ns f.
Proof.
  intros s ns f. unfold on_face_b, lies_on_face.
  destruct (getCodim1EntityLocalIndices s f) as [fn|].
  - rewrite forallb_forall. split.
    + intros H. exists fn. split; [reflexivity|]. intros n Hn. specialize (H n Hn).
      apply existsb_exists in H. destruct H as (k & Hk & E). apply Nat.eqb_eq in E. subst. exact Hk.
    + intros (fn' & E & H) n Hn. injection E as <-. apply existsb_exists. exists n.
      split; [apply H, Hn|apply Nat.eqb_refl].
  - split; [discriminate|]. intros (fn & E & _). discriminate E.
Qed.
Lemma edges_two_faces : forall s e ns, getCodim2EntityLocalIndices s e = Some ns ->
  exists a b, ns = [a; b] /\ a <> b /\ (a < length (points s))%nat /\ (b < length (points s))%nat /\
  exists f g, (f < g)%nat /\ forall h, lies_on_face s ns h <-> h = f \/ h = g.
Proof.
  intros s e ns H.
  enough (K : exists a b, ns = [a; b] /\ a <> b /\ (a < length (points s))%nat /\ (b < length (points s))%nat /\
    exists f g, (f < g)%nat /\ forall h, on_face_b s ns h = true <-> h = f \/ h = g).
  { destruct K as (a & b & E & D & A & B & f & g & L & K). exists a, b. repeat (split; [assumption|]).
    exists f, g. split; [exact L|]. intros h. rewrite <- K. symmetry. apply on_face_iff. }
  destruct s; try (cbn in H; destruct e; discriminate H);
    enum 13%nat e; cbn in H; try discriminate H; injs;
    (do 2 eexists; split; [reflexivity|split; [discriminate|split; [cbn; lia|split; [cbn; lia|]]]]);
    let go f g := (exists f, g; split; [lia|]; intros h; enum 7%nat h; cbn; (split; [intros; try discriminate; lia | intros [?|?]; try reflexivity; lia])) in
    first [go 0%nat 1%nat | go 0%nat 2%nat | go 0%nat 3%nat | go 0%nat 4%nat | go 0%nat 5%nat
          | go 1%nat 2%nat | go 1%nat 3%nat | go 1%nat 4%nat | go 1%nat 5%nat
          | go 2%nat 3%nat | go 2%nat 4%nat | go 2%nat 5%nat | go 3%nat 4%nat | go 3%nat 5%nat | go 4%nat 5%nat].
Qed.

(** ** the rotations of the square and the maps of the cube *)
Lemma square_rotation_wrong :
  let l1 := [10; 11; 12; 13]%nat in let l2 := [11; 13; 10; 12]%nat in
  NoDup l1 /\ Permutation l1 l2 /\ affinely_related Square l1 l2 /\
  exists i m, getCodim0MappingIndex Square l1 l2 = Some i /\ getCodim0MappingPtr Square i = Some m /\
    ~ carries_nodes Square m l1 l2.
Proof.
  intros l1 l2. split; [repeat constructor; cbn; lia|]. split.
  - apply NoDup_Permutation_bis.
    + repeat constructor; cbn; lia.
    + cbn; lia.
    + intros x H. cbn in H |- *. intuition.
  - split.
    + exists 0, 1, (-1), 0, 0, 0. carry.
    + exists 1%nat, SquareToSquare1. split; [reflexivity|split; [reflexivity|]].
      intros H. specialize (H 0%nat 2%nat 10%nat [-1; -1] [-1; 1] eq_refl eq_refl eq_refl eq_refl).
      cbn in H. injection H as H1 H2. lra.
Qed.
Lemma cube_wrong :
  let l1 := [0;1;2;3;4;5;6;7]%nat in let l2 := [1;0;3;2;5;4;7;6]%nat in
  (forall x y z, In [x;y;z] (points Cube) -> In [-x;y;z] (points Cube)) /\
  carries_nodes Cube (RefMap (fun p => match p with [x;y;z] => Some [-x;y;z] | _ => None end) (fun _ => None)) l1 l2 /\
  exists i m, getCodim0MappingIndex Cube l1 l2 = Some i /\ getCodim0MappingPtr Cube i = Some m /\
    ~ carries_nodes Cube m l1 l2.
Proof.
  intros l1 l2. split; [|split].
  - intros x y z H. cbn in H |- *. repeat destruct H as [H|H]; try contradiction H; injection H as <- <- <-;
      replace (--1) with 1 by lra; tauto.
  - intros k1 k2 id p1 p2 E1 E2 F1 F2. enum 9%nat k1; cbn in E1, F1; try discriminate E1; injs;
      enum 9%nat k2; cbn in E2, F2; try discriminate E2; injs; cbn; point_eq lra.
  - exists 5%nat, CubeToCube5. split; [reflexivity|split; [reflexivity|]].
    intros H. specialize (H 0%nat 1%nat 0%nat [-1;-1;-1] [1;-1;-1] eq_refl eq_refl eq_refl eq_refl).
    cbn in H. injection H as H1 H2. lra.
Qed.
Lemma cube_identity : forall l, length l = 8%nat -> NoDup l ->
  exists i m, getCodim0MappingIndex Cube l l = Some i /\ getCodim0MappingPtr Cube i = Some m /\
    carries_nodes Cube m l l.
Proof.
  intros l L N. names_of_length L. exists 0%nat, CubeToCube0. cbn. eqbs. split; [reflexivity|split; [reflexivity|]].
  intros k1 k2 id p1 p2 E1 E2 F1 F2.
  assert (k1 = k2).
  { apply (proj1 (NoDup_nth_error _) N); [|congruence]. apply nth_error_Some. congruence. }
  subst k2. rewrite F1 in F2. injection F2 as <-.
  assert (L3 : length p1 = 3%nat) by (apply (points_length Cube); eapply nth_error_In; eassumption).
  points_of_dim. reflexivity.
Qed.
