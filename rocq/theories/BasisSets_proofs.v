(** Proofs about the sets of basis functions. *)
From Coq Require Import List Arith Bool ZArith Reals Lia Lra.
From Verif Require Import Legendre_model RefGeometry_model RefGeometry_spec RefGeometry_proofs BasisFunctions_model BasisSets_model BasisSets_spec.
Import ListNotations.
Local Open Scope R_scope.

Lemma bind_inv : forall A B (a : option A) (k : A -> option B) r, bind a k = Some r -> exists x, a = Some x /\ k x = Some r.
Proof. intros A B [x|] k r H; [eauto|discriminate]. Qed.
Ltac bind_inv := repeat match goal with
  | H : bind _ _ = Some _ |- _ => apply bind_inv in H; destruct H as (? & ? & ?)
  end.
Lemma in_all : forall l r f, all l = Some r -> In f r -> In (Some f) l.
Proof.
  induction l as [|o l IH]; intros r f H Hin; cbn [all] in H.
  - injection H as <-. contradiction.
  - bind_inv. subst. injs. destruct Hin as [->|Hin]; [now left|right; eauto].
Qed.
Lemma in_all_sets : forall l r s, all_sets l = Some r -> In s r ->
  exists fs, In (orientation s, face s, fs) l /\ all fs = Some (functions s).
Proof.
  induction l as [|[[o i] fs] l IH]; intros r s H Hin; cbn [all_sets] in H.
  - injection H as <-. contradiction.
  - bind_inv. injs. destruct Hin as [<-|Hin].
    + exists fs. split; [now left|assumption].
    + match goal with H : all_sets l = Some _ |- _ => destruct (IH _ _ H Hin) as (fs' & A & B) end.
      exists fs'. split; [now right|exact B].
Qed.
Lemma select_spec : forall o i sets l, select o i sets = Some l ->
  exists s, In s sets /\ orientation s = o /\ face s = i /\ functions s = l.
Proof.
  unfold select. intros o i sets.
  enough (G : forall r l, fold_left (fun r s => if checkOrientation o i s then Some (functions s) else r) sets r = Some l ->
    r = Some l \/ exists s, In s sets /\ orientation s = o /\ face s = i /\ functions s = l).
  { intros l H. destruct (G None l H) as [H'|H']; [discriminate|exact H']. }
  induction sets as [|s sets IH]; intros r l H; cbn [fold_left] in H; [now left|].
  destruct (IH _ _ H) as [E|(t & A & B)]; [|right; exists t; split; [now right|exact B]].
  destruct (checkOrientation o i s) eqn:C; [|now left].
  right. exists s. injection E as E. unfold checkOrientation in C. apply andb_true_iff in C. destruct C as [C D].
  apply Nat.eqb_eq in C, D. repeat split; auto. now left.
Qed.
Lemma in_loop : forall k n i, In i (loop k n) <-> (i + k <= n)%nat.
Proof. intros k n i. unfold loop. rewrite in_seq. lia. Qed.
Lemma positive_inv : forall asserts A n (k : option A) r, positive asserts n k = Some r -> k = Some r.
Proof. unfold positive. intros asserts A n k r. destruct (asserts && _); [discriminate|auto]. Qed.
Lemma new_inv : forall asserts c f g, new asserts c f = Some g -> g = f.
Proof. unfold new. intros asserts c f g. destruct (asserts && _); [discriminate|congruence]. Qed.
Lemma in_oriented_sets : forall c nodes i orders orientations o j fs,
  In (o, j, fs) (oriented_sets c nodes i orders orientations) ->
  j = i /\ exists p0 p1 p2, In (o, (p0, p1, p2)) orientations /\
  fs = map (fun jk : nat * nat => ns <- nodes; a <- nth_error ns p0; b <- nth_error ns p1; d <- nth_error ns p2; c a b d (fst jk) (snd jk)) orders.
Proof.
  intros c nodes i orders orientations o j fs H. unfold oriented_sets in H. apply in_map_iff in H.
  destruct H as ([o' [[p0 p1] p2]] & E & Hin). injection E as <- <- <-. split; [reflexivity|]. eauto 8.
Qed.

Lemma nth_all_sets : forall l r i s, all_sets l = Some r -> nth_error r i = Some s ->
  exists o f fs, nth_error l i = Some (o, f, fs) /\ all fs = Some (functions s).
Proof.
  induction l as [|[[o f] fs] l IH]; intros r i s H Hin; cbn [all_sets] in H.
  - injection H as <-. destruct i; discriminate.
  - bind_inv. injs. destruct i as [|i]; cbn [nth_error] in *.
    + injection Hin as <-. eauto.
    + match goal with H : all_sets l = Some _ |- _ => exact (IH _ _ _ H Hin) end.
Qed.

(** one goal for each function of a set *)
Ltac classify_function H := (* expression = Some f *)
  cbn [bind with2 with3 nth_error fst snd getCodim1EntityLocalIndices getCodim2EntityLocalIndices] in H;
  first [apply new_inv in H | injection H; clear H; intros H; symmetry in H]; subst.
Ltac classify_list H :=
  repeat first
  [ rewrite in_map_iff in H; let x := fresh "k" in destruct H as (x & H & ?)
  | rewrite in_flat_map in H; let x := fresh "k" in destruct H as (x & ? & H) ].
(** Hin : In g l, Ha : all (...) = Some l *)
Ltac classify_all Ha Hin :=
  apply (in_all _ _ _ Ha) in Hin; clear Ha;
  lazymatch type of Hin with
  | In _ [_] => destruct Hin as [Hin|Hin]; [|contradiction]
  | In _ [] => contradiction
  | _ => classify_list Hin end; classify_function Hin.
Ltac explicit_sets H := cbn [In flat_map map seq app oriented_sets triangle_orientations fst snd Nat.add] in H.
(** Ha : all_sets (...) = Some sets, Hs : select o i sets = Some l, Hin : In g l *)
Ltac classify_sets Ha Hs Hin :=
  let t := fresh "t" in let A := fresh in let B := fresh in let C := fresh in let D := fresh in
  let fs := fresh "fs" in let E := fresh in let F := fresh in
  apply select_spec in Hs; destruct Hs as (t & A & B & C & D); subst;
  destruct (in_all_sets _ _ _ Ha A) as (fs & E & F); clear Ha A;
  explicit_sets E;
  repeat match type of E with _ \/ _ => destruct E as [E|E] end; try contradiction;
  injection E; clear E; let E1 := fresh in let E2 := fresh in let E3 := fresh in intros E1 E2 E3;
  rewrite <- E1 in F; clear E1; classify_all F Hin; rewrite <- ?E2, <- ?E3 in *; clear t E2 E3.
(** Ha : all_sets (...) = Some sets, Hs : nth_error sets i = Some t, Hin : In g (functions t) *)
Ltac classify_nth Ha i Hs Hin :=
  let o := fresh in let f := fresh in let fs := fresh in let E := fresh in let F := fresh in
  destruct (nth_all_sets _ _ _ _ Ha Hs) as (o & f & fs & E & F); clear Ha Hs;
  explicit_sets E; enum 10%nat i; cbn [nth_error] in E; try discriminate E; injection E; clear E; 
  let E1 := fresh in let E2 := fresh in let E3 := fresh in intros E1 E2 E3; rewrite <- E1 in F; clear E1; 
  classify_all F Hin.
(** Hg : attached asserts s order ns g, for concrete s *)
Ltac unfold_sets H := unfold
  createInteriorBasisFunctionSet1DH1Line, createInteriorBasisFunctionSet2DH1Square, createInteriorBasisFunctionSet2DH1Triangle,
  createInteriorBasisFunctionSet3DH1Tetrahedron, createInteriorBasisFunctionSet3DH1Cube, createInteriorBasisFunctionSet3DH1ConformingPrism,
  createVertexBasisFunctionSet1DH1Line, createVertexBasisFunctionSet2DH1Square, createVertexBasisFunctionSet2DH1Triangle,
  createVertexBasisFunctionSet3DH1Tetrahedron, createVertexBasisFunctionSet3DH1Cube, createVertexBasisFunctionSet3DH1ConformingPrism,
  createEdgeBasisFunctionSet3DH1Tetrahedron, createEdgeBasisFunctionSet3DH1Cube, createEdgeBasisFunctionSet3DH1ConformingPrism,
  createFaceBasisFunctionSet2DH1Square, createFaceBasisFunctionSet2DH1Triangle, createFaceBasisFunctionSet3DH1Tetrahedron,
  createFaceBasisFunctionSet3DH1Cube, createFaceBasisFunctionSet3DH1ConformingPrism in H.
Ltac classify_attached Hg :=
  let Hi' := fresh "Hi'" in let Hs := fresh in let Hin := fresh "Hin" in
  destruct Hg as [? ? Hs Hin|? ? ? ? ? Hi' Hs Hin|? ? ? ? ? Hi' Hs Hin|? ? ? Hs Hin];
  unfold face_functions, edge_functions, node_functions, default_conforming_sets in Hs; bind_inv; injs;
  cbn [interior_set face_sets edge_sets node_sets] in *;
  [ lazymatch type of Hin with In _ ?x =>
      lazymatch goal with H : _ = Some x |- _ => unfold_sets H; apply positive_inv in H; classify_all H Hin end end
  | lazymatch goal with H : select _ _ ?x = Some _ |- _ => 
      lazymatch goal with K : _ = Some x |- _ => unfold_sets K; apply positive_inv in K; classify_sets K H Hin end end;
      cbn in Hi'; injs
  | lazymatch goal with H : select _ _ [] = Some _ |- _ => discriminate H | H : select _ _ ?x = Some _ |- _ => 
      lazymatch goal with K : _ = Some x |- _ => unfold_sets K; apply positive_inv in K; classify_sets K H Hin end end;
      cbn in Hi'; injs
  | lazymatch goal with H : nth_error [] ?i = Some _ |- _ => destruct i; discriminate H | H : nth_error ?x ?i = Some _ |- _ => 
      lazymatch goal with K : _ = Some x |- _ => unfold_sets K; apply positive_inv in K; classify_nth K i H Hin end end ];
  repeat match goal with H : _ = Some _ |- _ => lazymatch type of H with
   | context [positive] => clear H | createInteriorBasisFunctionSet3DH1Tetrahedron _ _ = _ => clear H end end.

Ltac vanish f Hm Hf Hn Hi Hp q :=
  enum 7%nat f; cbn in Hm, Hf, Hn; try discriminate Hm; injs;
  try (exfalso; apply Hi; unfold incl; cbn; intros; lia);
  destruct q as [|? [|? [|? [|? q]]]]; try discriminate Hp; cbn in Hp; injs.
Ltac values := repeat match goal with k : (nat * nat)%type |- _ => destruct k end;
  cbv -[LobattoPolynomial plus_tiny Rplus Rmult Rminus Ropp Rdiv IZR Rinv].
Lemma plus_tiny_nonzero : forall a, plus_tiny a <> 0.
Proof.
  intros a. unfold plus_tiny. destruct (Req_EM_T a 0) as [E|E]; [|exact E].
  apply Rinv_neq_0_compat, pow_nonzero. lra.
Qed.
Ltac zero := values; f_equal; (ring || (field; apply plus_tiny_nonzero) || field || lra).


Lemma vanish_tetrahedron : forall asserts order ns g f m fs fn q p, attached asserts Tetrahedron order ns g ->
  the_face Tetrahedron f m fs fn -> ~ incl ns fn -> transform m q = Some p -> eval g p = Some 0.
Proof.
  intros asserts order ns g f m fs fn q p Hg (Hm & Hf & Hn) Hi Hp.
  classify_attached Hg; vanish f Hm Hf Hn Hi Hp q; zero.
Qed.
Lemma vanish_line : forall asserts order ns g f m fs fn q p, attached asserts Line order ns g ->
  the_face Line f m fs fn -> ~ incl ns fn -> transform m q = Some p -> eval g p = Some 0.
Proof.
  intros asserts order ns g f m fs fn q p Hg (Hm & Hf & Hn) Hi Hp.
  classify_attached Hg; vanish f Hm Hf Hn Hi Hp q; zero.
Qed.
Lemma vanish_triangle : forall asserts order ns g f m fs fn q p, attached asserts Triangle order ns g ->
  the_face Triangle f m fs fn -> ~ incl ns fn -> transform m q = Some p -> eval g p = Some 0.
Proof.
  intros asserts order ns g f m fs fn q p Hg (Hm & Hf & Hn) Hi Hp.
  classify_attached Hg; vanish f Hm Hf Hn Hi Hp q; zero.
Qed.
Lemma vanish_square : forall asserts order ns g f m fs fn q p, attached asserts Square order ns g ->
  the_face Square f m fs fn -> ~ incl ns fn -> transform m q = Some p -> eval g p = Some 0.
Proof.
  intros asserts order ns g f m fs fn q p Hg (Hm & Hf & Hn) Hi Hp.
  classify_attached Hg; vanish f Hm Hf Hn Hi Hp q; zero.
Qed.
Lemma vanish_cube : forall asserts order ns g f m fs fn q p, attached asserts Cube order ns g ->
  the_face Cube f m fs fn -> ~ incl ns fn -> transform m q = Some p -> eval g p = Some 0.
Proof.
  intros asserts order ns g f m fs fn q p Hg (Hm & Hf & Hn) Hi Hp.
  classify_attached Hg; vanish f Hm Hf Hn Hi Hp q; zero.
Qed.

Lemma no_square_orders : forall order k, (order <= 1)%nat -> ~ In k (square_orders order).
Proof.
  intros order k L H. unfold square_orders in H. rewrite in_flat_map in H. destruct H as (x & H & _).
  apply in_loop in H. lia.
Qed.
Lemma vanish_prism : forall asserts order ns g f m fs fn q p, attached asserts TriangularPrism order ns g ->
  (order <= 1)%nat \/ length ns <> 4%nat ->
  the_face TriangularPrism f m fs fn -> ~ incl ns fn -> transform m q = Some p -> eval g p = Some 0.
Proof.
  intros asserts order ns g f m fs fn q p Hg Ho (Hm & Hf & Hn) Hi Hp.
  classify_attached Hg;
    try (exfalso; lazymatch goal with H : In _ (square_orders _) |- _ =>
           destruct Ho as [Ho|Ho]; [exact (no_square_orders _ _ Ho H)|apply Ho; reflexivity] end);
    vanish f Hm Hf Hn Hi Hp q; zero.
Qed.
Lemma vanish_pyramid : forall asserts order ns g f m fs fn q p, attached asserts Pyramid order ns g ->
  the_face Pyramid f m fs fn -> ~ incl ns fn -> transform m q = Some p -> eval g p = Some 0.
Proof.
  intros asserts order ns g f m fs fn q p Hg (Hm & Hf & Hn) Hi Hp.
  destruct Hg as [? ? Hs Hin|? ? ? ? ? Hi' Hs Hin|? ? ? ? ? Hi' Hs Hin|i ? ? Hs Hin];
    unfold face_functions, edge_functions, node_functions, default_conforming_sets in Hs; bind_inv; injs;
    cbn [interior_set face_sets edge_sets node_sets] in *.
  - unfold createInteriorBasisFunctionSet3DH1ConformingPyramid in *. destruct (asserts && _); injs; try discriminate; contradiction.
  - discriminate.
  - discriminate.
  - lazymatch goal with K : createVertexBasisFunctionSet3DH1ConformingPyramid _ _ = Some _, H : nth_error _ _ = Some _ |- _ =>
      unfold createVertexBasisFunctionSet3DH1ConformingPyramid in K; destruct (asserts && _); [discriminate K|];
      classify_nth K i H Hin end; vanish f Hm Hf Hn Hi Hp q; zero.
Qed.
Lemma vanish_point : forall asserts order ns g, attached asserts Point order ns g -> False.
Proof.
  intros asserts order ns g Hg. 
  destruct Hg as [? ? Hs Hin|? ? ? ? ? Hi' Hs Hin|? ? ? ? ? Hi' Hs Hin|i ? ? Hs Hin];
    unfold face_functions, edge_functions, node_functions, default_conforming_sets in Hs; discriminate.
Qed.
Lemma vanish_hypercube : forall asserts order ns g, attached asserts Hypercube order ns g -> False.
Proof.
  intros asserts order ns g Hg. 
  destruct Hg as [? ? Hs Hin|? ? ? ? ? Hi' Hs Hin|? ? ? ? ? Hi' Hs Hin|i ? ? Hs Hin];
    unfold face_functions, edge_functions, node_functions, default_conforming_sets in Hs; discriminate.
Qed.
Lemma vanish_on_other_faces : forall asserts s order ns g f m fs fn q p, attached asserts s order ns g -> good_part s order ns ->
  the_face s f m fs fn -> ~ incl ns fn -> transform m q = Some p -> eval g p = Some 0.
Proof.
  intros asserts s order ns g f m fs fn q p Hg Hp. destruct s.
  all: eauto using vanish_line, vanish_triangle, vanish_square, vanish_cube, vanish_tetrahedron, vanish_pyramid, vanish_prism.
  all: exfalso; eauto using vanish_point, vanish_hypercube.
Qed.

Lemma plus_tiny_same : forall a, a <> 0 -> plus_tiny a = a.
Proof. intros a H. unfold plus_tiny. destruct (Req_EM_T a 0); [contradiction|reflexivity]. Qed.
Definition is_node (s : shape) (j : nat) (p : point) : Prop := nth_error (points s) j = Some p.
Lemma nodal : forall asserts s order i j g p, attached asserts s order [i] g -> nth_error (points s) j = Some p ->
  eval g p = Some (if Nat.eqb i j then 1 else 0).
Proof.
  intros asserts s order i j g p Hg Hp. remember [i] as ns eqn:E. change (is_node s j p) in Hp.
  Ltac finish_nodal j Hp := unfold is_node in Hp;
    repeat match goal with E : @eq (list nat) ?a ?b |- _ =>
      lazymatch eval cbn in (length a =? length b)%nat with
      | false => apply (f_equal (@length nat)) in E; discriminate E
      | true => first [is_var a; subst a | is_var b; subst b | injection E; clear E; intros; subst] end end;
    try discriminate; enum 9%nat j; cbn in Hp; try discriminate Hp; injection Hp as <-; zero.
  destruct s.
  - exfalso. eauto using vanish_point.
  - classify_attached Hg; finish_nodal j Hp.
  - classify_attached Hg; finish_nodal j Hp.
  - classify_attached Hg; finish_nodal j Hp.
  - classify_attached Hg; finish_nodal j Hp.
  - destruct Hg as [? ? Hs Hin|? ? ? ? ? Hi' Hs Hin|? ? ? ? ? Hi' Hs Hin|k ? ? Hs Hin];
    unfold face_functions, edge_functions, node_functions, default_conforming_sets in Hs; bind_inv; injs;
    cbn [interior_set face_sets edge_sets node_sets] in *; try discriminate.
    lazymatch goal with K : createVertexBasisFunctionSet3DH1ConformingPyramid _ _ = Some _, H : nth_error _ _ = Some _ |- _ =>
      unfold createVertexBasisFunctionSet3DH1ConformingPyramid in K; destruct (asserts && _); [discriminate K|];
      classify_nth K k H Hin end; unfold is_node in Hp; injection E as E; subst i; enum 6%nat j; cbn in Hp; try discriminate Hp; injection Hp as <-; 
    first [solve [zero] | values; rewrite plus_tiny_same by lra; f_equal; field; lra].
  - classify_attached Hg; finish_nodal j Hp.
  - classify_attached Hg; finish_nodal j Hp.
  - exfalso. eauto using vanish_hypercube.
Qed.

(** ** The vertex functions add up to one *)
Lemma attached_node_unique : forall asserts s order i g, attached asserts s order [i] g ->
  match s with
  | Line => g = VertexLine (2 * Z.of_nat i - 1)
  | Triangle => g = VertexTriangle i
  | Square => g = VertexSquare (position (i mod 2)) (position (i / 2))
  | Tetrahedron => g = VertexTetrahedron i
  | Cube => g = VertexCube (position (i mod 2)) (position ((i / 2) mod 2)) (position (i / 4))
  | TriangularPrism => g = VertexPrism (position (i / 3)) (i mod 3)
  | Pyramid => g = VertexPyramid i
  | _ => False
  end.
Proof.
  intros asserts s order i g Hg. remember [i] as ns eqn:E.
  Ltac finish_unique := 
    repeat match goal with E : @eq (list nat) ?a ?b |- _ =>
      lazymatch eval cbn in (length a =? length b)%nat with
      | false => apply (f_equal (@length nat)) in E; discriminate E
      | true => first [is_var a; subst a | is_var b; subst b | injection E; clear E; intros; subst] end end;
    try discriminate; reflexivity.
  destruct s.
  - eauto using vanish_point.
  - classify_attached Hg; finish_unique.
  - classify_attached Hg; finish_unique.
  - classify_attached Hg; finish_unique.
  - classify_attached Hg; finish_unique.
  - destruct Hg as [? ? Hs Hin|? ? ? ? ? Hi' Hs Hin|? ? ? ? ? Hi' Hs Hin|k ? ? Hs Hin];
    unfold face_functions, edge_functions, node_functions, default_conforming_sets in Hs; bind_inv; injs;
    cbn [interior_set face_sets edge_sets node_sets] in *; try discriminate.
    lazymatch goal with K : createVertexBasisFunctionSet3DH1ConformingPyramid _ _ = Some _, H : nth_error _ _ = Some _ |- _ =>
      unfold createVertexBasisFunctionSet3DH1ConformingPyramid in K; destruct (asserts && _); [discriminate K|];
      classify_nth K k H Hin end; injection E as E; subst i; reflexivity.
  - classify_attached Hg; finish_unique.
  - classify_attached Hg; finish_unique.
  - eauto using vanish_hypercube.
Qed.

Lemma partition_of_unity : forall asserts s order gs p, length gs = length (points s) ->
  (forall i g, nth_error gs i = Some g -> attached asserts s order [i] g) -> length p = dimension s ->
  (s = Pyramid -> nth 2 p 0 <> 1) ->
  exists vs, map (fun g => eval g p) gs = map Some vs /\ sum vs = 1.
Proof.
  intros asserts s order gs p Hl Ha Hp Ht.
  assert (U : forall i g, nth_error gs i = Some g -> _) by (intros i g H; exact (attached_node_unique _ _ _ _ _ (Ha i g H))).
  clear Ha.
  destruct s; try (exfalso; destruct gs as [|b gs]; [discriminate Hl|exact (U 0%nat b eq_refl)]);
    cbn [dimension] in Hp; points_of_dim; cbn [points length] in Hl; points_of_dim;
    repeat match goal with b : basis_function |- _ =>
      first [ pose proof (U 0%nat b eq_refl); subst b | pose proof (U 1%nat b eq_refl); subst b
            | pose proof (U 2%nat b eq_refl); subst b | pose proof (U 3%nat b eq_refl); subst b
            | pose proof (U 4%nat b eq_refl); subst b | pose proof (U 5%nat b eq_refl); subst b
            | pose proof (U 6%nat b eq_refl); subst b | pose proof (U 7%nat b eq_refl); subst b ] end; clear U;
    [eexists [_;_]|eexists [_;_;_]|eexists [_;_;_;_]|eexists [_;_;_;_]|eexists [_;_;_;_;_]|eexists [_;_;_;_;_;_]|eexists [_;_;_;_;_;_;_;_]];
    (split; [values; reflexivity|unfold sum; cbn [fold_right]]); try field.
  rewrite plus_tiny_same; [field|]; specialize (Ht eq_refl); cbn [nth] in Ht; lra.
Qed.

(** ** When the sets exist *)
Lemma positive_ok : forall asserts A order (k : option A), (1 <= order)%nat -> positive asserts order k = k.
Proof.
  intros asserts A order k H. unfold positive. destruct (Nat.ltb_spec 0 order); [|lia].
  now rewrite andb_false_r.
Qed.
Lemma all_ok : forall l, (forall o, In o l -> exists f, o = Some f) -> exists r, all l = Some r /\ l = map Some r.
Proof.
  induction l as [|o l IH]; intros H; [exists []; split; reflexivity|].
  destruct (H o (or_introl eq_refl)) as [f ->]. destruct IH as (r & E & L); [intros o' Ho; apply H; now right|].
  exists (f :: r). cbn. rewrite E, L. split; reflexivity.
Qed.
Lemma all_length : forall l r, all l = Some r -> l = map Some r.
Proof.
  induction l as [|o l IH]; intros r H; cbn [all] in H; [now injection H as <-|].
  bind_inv. injs. cbn. f_equal. auto.
Qed.
Lemma all_sets_ok : forall l, (forall o i fs, In (o, i, fs) l -> forall x, In x fs -> exists f, x = Some f) ->
  exists r, all_sets l = Some r /\ map (fun t => (orientation t, face t, map Some (functions t))) r = l.
Proof.
  induction l as [|[[o i] fs] l IH]; intros H; [exists []; split; reflexivity|].
  destruct (all_ok fs) as (fs' & E & L); [intros x Hx; exact (H o i fs (or_introl eq_refl) x Hx)|].
  destruct IH as (r & Er & Lr); [intros o' i' fs'' Ho; exact (H o' i' fs'' (or_intror Ho))|].
  exists (OrientedSet o i fs' :: r). cbn. rewrite E, Er. cbn. split; [reflexivity|]. cbn in L. rewrite <- L. now f_equal.
Qed.
Ltac some_new asserts := 
  cbn [bind with2 with3 nth_error fst snd getCodim1EntityLocalIndices getCodim2EntityLocalIndices];
  first [eexists; reflexivity
        | (match goal with |- exists f, ?c = Some f => let c' := eval hnf in c in change c with c' end);
          destruct asserts; eexists; reflexivity].
Ltac listed H := repeat first
  [ rewrite in_map_iff in H; let x := fresh "k" in let E := fresh in destruct H as (x & E & ?); subst
  | rewrite in_flat_map in H; let x := fresh "k" in destruct H as (x & ? & H) ].
Ltac defined_all asserts := let o := fresh in let H := fresh in
  apply all_ok; intros o H; listed H; some_new asserts.
Ltac defined_sets asserts := let o := fresh in let i := fresh in let fs := fresh in let E := fresh in let x := fresh in let H := fresh in
  apply all_sets_ok; intros o i fs E x H; explicit_sets E;
  repeat match type of E with _ \/ _ => destruct E as [E|E] end; try contradiction;
  injection E; clear E; intros; subst; 
  first [destruct H as [<-|[]] | listed H]; some_new asserts.

Ltac next_set asserts := cbn [bind];
  lazymatch goal with
  | |- context [bind (all ?l) _] =>
      let F := fresh in let r := fresh in let E := fresh in
      assert (F : exists r, all l = Some r /\ l = map Some r) by defined_all asserts; destruct F as (r & E & _); rewrite E; clear E
  | |- context [bind (all_sets ?l) _] =>
      let F := fresh in let r := fresh in let E := fresh in
      assert (F : exists r, all_sets l = Some r /\ map (fun t => (orientation t, face t, map Some (functions t))) r = l)
        by defined_sets asserts; destruct F as (r & E & _); rewrite E; clear E
  end.
Ltac sets_exist asserts Ho :=
  unfold default_conforming_sets; match goal with |- ?G => idtac end;
  unfold createInteriorBasisFunctionSet1DH1Line, createInteriorBasisFunctionSet2DH1Square, createInteriorBasisFunctionSet2DH1Triangle,
  createInteriorBasisFunctionSet3DH1Tetrahedron, createInteriorBasisFunctionSet3DH1Cube, createInteriorBasisFunctionSet3DH1ConformingPrism,
  createVertexBasisFunctionSet1DH1Line, createVertexBasisFunctionSet2DH1Square, createVertexBasisFunctionSet2DH1Triangle,
  createVertexBasisFunctionSet3DH1Tetrahedron, createVertexBasisFunctionSet3DH1Cube, createVertexBasisFunctionSet3DH1ConformingPrism,
  createEdgeBasisFunctionSet3DH1Tetrahedron, createEdgeBasisFunctionSet3DH1Cube, createEdgeBasisFunctionSet3DH1ConformingPrism,
  createFaceBasisFunctionSet2DH1Square, createFaceBasisFunctionSet2DH1Triangle, createFaceBasisFunctionSet3DH1Tetrahedron,
  createFaceBasisFunctionSet3DH1Cube, createFaceBasisFunctionSet3DH1ConformingPrism;
  rewrite !positive_ok by exact Ho; repeat next_set asserts; eexists; reflexivity.
Lemma prism_defined : forall order, (1 <= order)%nat -> exists sets, default_conforming_sets false TriangularPrism order = Some sets.
Proof. intros order Ho. sets_exist false Ho. Qed.
Lemma sets_defined : forall asserts s order, (1 <= order)%nat ->
  match s with
  | Line | Triangle | Square | Tetrahedron | Cube => True
  | TriangularPrism | Pyramid => order = 1%nat \/ asserts = false
  | _ => False
  end -> exists sets, default_conforming_sets asserts s order = Some sets.
Proof.
  intros asserts s order Ho Hs. destruct s; try contradiction.
  - sets_exist asserts Ho.
  - sets_exist asserts Ho.
  - sets_exist asserts Ho.
  - sets_exist asserts Ho.
  - destruct Hs as [->|Hs]; [destruct asserts; eexists; reflexivity|subst asserts].
    eexists. reflexivity.
  - destruct Hs as [->|Hs]; [|subst asserts; exact (prism_defined order Ho)].
    destruct asserts; eexists; reflexivity.
  - sets_exist asserts Ho.
Qed.

Lemma all_none : forall l, In None l -> all l = None.
Proof.
  induction l as [|o l IH]; [intros []|]. intros [H|H]; [now subst|].
  cbn. rewrite IH by assumption. now destruct o.
Qed.
Lemma all_sets_none : forall l o i fs, In (o, i, fs) l -> In None fs -> all_sets l = None.
Proof.
  induction l as [|[[o i] fs] l IH]; [intros ? ? ? []|]. intros o' i' fs' [E|Hin] Hn.
  - injection E as -> -> ->. cbn. now rewrite (all_none _ Hn).
  - cbn. rewrite (IH _ _ _ Hin Hn). now destruct (all fs).
Qed.
Lemma zero_square_orders : forall order, (2 <= order)%nat -> In (0, 0)%nat (square_orders order).
Proof.
  intros order H. unfold square_orders. apply in_flat_map. exists 0%nat. rewrite in_loop. split; [lia|].
  apply in_map_iff. exists 0%nat. rewrite in_loop. split; [reflexivity|lia].
Qed.
Lemma prism_stops : forall order, (2 <= order)%nat -> default_conforming_sets true TriangularPrism order = None.
Proof.
  intros order Ho. unfold default_conforming_sets. destruct createInteriorBasisFunctionSet3DH1ConformingPrism; [|reflexivity].
  cbn [bind]. unfold createFaceBasisFunctionSet3DH1ConformingPrism. rewrite positive_ok by lia.
  assert (H := zero_square_orders order Ho).
  match goal with |- context [all_sets ?l] => assert (E : all_sets l = None) end; [|now rewrite E].
  eapply all_sets_none.
  - apply in_or_app. right. apply in_flat_map. exists 2%nat. split; [cbn; tauto|].
    unfold oriented_sets. apply in_map_iff. eexists. split; [|left; reflexivity]. reflexivity.
  - apply in_map_iff. exists (0, 0)%nat. split; [reflexivity|exact H].
Qed.
Lemma select_in : forall o i sets t, In t sets -> orientation t = o -> face t = i ->
  (forall u, In u sets -> orientation u = o -> face u = i -> u = t) -> select o i sets = Some (functions t).
Proof.
  intros o i sets t Hin Ho Hi U. unfold select.
  enough (G : forall r, (In t sets \/ r = Some (functions t)) ->
    fold_left (fun r s => if checkOrientation o i s then Some (functions s) else r) sets r = Some (functions t)) by auto.
  clear Hin. induction sets as [|s sets IH]; intros r H; cbn [fold_left]; [destruct H as [[]|H]; exact H|].
  apply IH; [intros u Hu; apply U; now right|].
  destruct (checkOrientation o i s) eqn:C.
  - right. unfold checkOrientation in C. apply andb_true_iff in C. destruct C as [C D]. apply Nat.eqb_eq in C, D.
    f_equal. f_equal. apply U; [now left|congruence|congruence].
  - destruct H as [[->|H]|H]; [|now left|now right].
    exfalso. unfold checkOrientation in C. rewrite Ho, Hi, !Nat.eqb_refl in C. discriminate.
Qed.
Lemma prism_wrong : exists ns g f m fs fn q p v, attached false TriangularPrism 2 ns g /\ the_face TriangularPrism f m fs fn /\
  ~ incl ns fn /\ internal fs q /\ transform m q = Some p /\ eval g p = Some v /\ v <> 0.
Proof.
  assert (E : getCodim1EntityLocalIndices TriangularPrism 2 = Some [2; 0; 5; 3]%nat) by reflexivity.
  exists [2; 0; 5; 3]%nat.
  assert (F : exists l, face_functions false TriangularPrism 2 0 2 = Some l) by (eexists; vm_compute; reflexivity).
  destruct F as [l F]. assert (G := F). vm_compute in G. injection G as G.
  assert (T : exists m fs fn, the_face TriangularPrism 0 m fs fn) by (repeat eexists).
  destruct T as (m & fs & fn & T). assert (T' := T). destruct T' as (Hm & Hf & Hn). cbn in Hm, Hf, Hn. injs.
  do 4 eexists; exists [0; 2; 1]%nat, [/ 4; / 4]. eexists. eexists.
  split; [eapply attached_face; [exact E|exact F|now left]|].
  split; [exact T|]. split; [unfold incl; intros H; specialize (H 5%nat); cbn in H; intuition discriminate|].
  split; [unfold internal; cbn; f_equal; rewrite !andb_true_iff; repeat split; unfold leb; destruct (Rle_dec _ _); auto; exfalso; lra|].
  split; [reflexivity|]. split; [reflexivity|].
  cbn [LobattoPolynomial]. assert (0 < sqrt (3 / 2)) by (apply sqrt_lt_R0; lra).
  assert (0 < sqrt (3 / 2) * sqrt (3 / 2)) by now apply Rmult_lt_0_compat. intros K. field_simplify in K. nra.
Qed.
