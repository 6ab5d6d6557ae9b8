(** Proofs: the conforming basis functions fit together. *)
From Coq Require Import List Arith Bool ZArith Lia Permutation Reals Lra.
From Verif Require Import Legendre_model Legendre_proofs RefGeometry_model RefGeometry_spec RefGeometry_proofs Curvilinear_model Curvilinear_spec
  FaceGeometry_model FaceGeometry_spec FaceSides_proofs BasisFunctions_model BasisSets_model BasisSets_spec BasisSets_proofs
  BasisSizes_proofs Conformity_spec.
Import ListNotations.
Local Open Scope R_scope.

(** ** traces on a face, in terms of the weights of its nodes *)
Definition wt (fs : shape) (p : point) (k : nat) : R := nth k (weights fs p) 0.
(** the positions on the right of the nodes 0, 1, ... of the left, by index *)
Definition places (fs : shape) (o : nat) : list nat :=
  match fs with
  | Point => [0]
  | Line => match o with 0 => [0;1] | _ => [1;0] end
  | Triangle => match o with 0 => [0;1;2] | 1 => [0;2;1] | 2 => [1;2;0] | 3 => [1;0;2] | 4 => [2;1;0] | _ => [2;0;1] end
  | Square => match o with
      | 0 => [0;1;2;3] | 1 => [2;0;3;1] | 2 => [3;2;1;0] | 3 => [1;3;0;2]
      | 4 => [2;3;0;1] | 5 => [1;0;3;2] | 6 => [3;1;2;0] | _ => [0;2;1;3] end
  | _ => []
  end%nat.

Lemma index_positions : forall fs i m lL lR o k h, getCodim0MappingPtr fs i = Some m -> carries_nodes fs m lL lR ->
  NoDup lL -> Permutation lL lR -> length lL = length (points fs) -> face_geometry (Base fs) ->
  getCodim0MappingIndex fs lL lR = Some o -> nth_error (places fs o) k = Some h -> nth_error lR h = nth_error lL k.
Proof.
  intros fs i m lL lR o k h Hm C N P L F Ho Hk.
  assert (A : fs = Square -> affinely_related Square lL lR) by (intros ->; eapply square_symmetry_affine; eassumption). clear C Hm i m.
  destruct (same_members _ _ P) as [_ L']. assert (N2 := Permutation_NoDup P N).
  destruct fs; try contradiction F; cbn [points length] in L; rewrite L in L'; revert L'; points_of_dim; intros L'; points_of_dim; neq_names.
  Ltac found Ho Hk k := revert Ho; cbn; eqbs; intros Ho; injection Ho as <-; cbn in Hk; enum 5%nat k; cbn in Hk; try discriminate Hk; injection Hk as <-; reflexivity.
  - place P n. found Ho Hk k.
  - place P n; place P n0; found Ho Hk k.
  - place P n; place P n0; place P n1; found Ho Hk k.
  - specialize (A eq_refl). apply affine_equations in A.
    destruct A as (u & v & w & t & e & f & A).
    place P n; place P n0; place P n1; place P n2;
    try (exfalso; use_affine A 0%nat; use_affine A 1%nat; use_affine A 2%nat; use_affine A 3%nat; clear A; lra);
    clear A; found Ho Hk k.
Qed.

Definition trace_orders (fs : shape) (order : nat) : list (nat * nat) :=
  match fs with
  | Point => [(0, 0)%nat]
  | Line => map (fun j => (j, 0)%nat) (loop 2 order)
  | Triangle => triangle_orders order
  | Square => square_orders order
  | _ => []
  end.
(** the values of a face function, when [w] gives the weights of the nodes in the order of the left element *)
Definition face_trace (fs : shape) (w : nat -> R) (jk : nat * nat) : R :=
  let (j, k) := jk in
  match fs with
  | Point => 1
  | Line => w 0%nat * w 1%nat * LobattoPolynomial j (w 1%nat - w 0%nat)
  | Triangle => w 0%nat * w 1%nat * w 2%nat * LobattoPolynomial j (w 0%nat - w 1%nat) * LobattoPolynomial k (w 1%nat - w 2%nat)
  | Square =>
      (w 0%nat + w 2%nat) * (w 1%nat + w 3%nat) * (w 0%nat + w 1%nat) * (w 2%nat + w 3%nat) *
      LobattoPolynomial j (w 1%nat + w 3%nat - w 0%nat - w 2%nat) * LobattoPolynomial k (w 2%nat + w 3%nat - w 0%nat - w 1%nat)
  | _ => 0
  end.
Lemma all_forall2 : forall A B (c : A -> option basis_function) (h : A -> B) (Q : B -> basis_function -> Prop) l r, all (map c l) = Some r ->
  (forall k f, In k l -> c k = Some f -> Q (h k) f) -> Forall2 Q (map h l) r.
Proof.
  induction l as [|k l IH]; intros r H HQ; cbn [map all] in H; [injection H as <-; constructor|].
  bind_inv. injs. cbn [map]. constructor; [apply HQ; [now left|assumption]|]. apply IH; [assumption|]. intros; apply HQ; [now right|assumption].
Qed.
Lemma all_forall2_id : forall A (c : A -> option basis_function) (Q : A -> basis_function -> Prop) l r, all (map c l) = Some r ->
  (forall k f, In k l -> c k = Some f -> Q k f) -> Forall2 Q l r.
Proof. intros A c Q l r H HQ. rewrite <- (map_id l). exact (all_forall2 A A c (fun k => k) Q l r H HQ). Qed.

(** equal values: match the arguments of the polynomials first *)
Ltac same_arguments :=
  repeat match goal with |- context [LobattoPolynomial ?j ?a] =>
    match goal with |- context [LobattoPolynomial j ?b] =>
      lazymatch a with b => fail | _ => replace (LobattoPolynomial j a) with (LobattoPolynomial j b) by (f_equal; field) end end end;
  field.
Lemma lobatto_0 : forall x, LobattoPolynomial 0 x = sqrt (3 / 2) * -2.
Proof. reflexivity. Qed.
Ltac trace_value := values; apply f_equal; rewrite ?lobatto_0; generalize (sqrt (3 / 2)); intros;
  first [field | same_arguments].

Definition face_good (fs s : shape) (order o : nat) : Prop :=
  fs = Square -> (order <= 1)%nat \/ s = Cube /\ ((order <= 2)%nat \/ In o [0; 2; 4; 5]%nat).
Lemma square_orders_2 : forall order jk, (order <= 2)%nat -> In jk (square_orders order) -> jk = (0, 0)%nat.
Proof.
  intros order jk L H. unfold square_orders in H. rewrite in_flat_map in H. destruct H as (x & H & K). apply in_map_iff in K.
  destruct K as (y & <- & K). apply in_loop in H, K. f_equal; lia.
Qed.
Definition placed (fs : shape) (o : nat) (p : point) (k : nat) : R := wt fs p (nth k (places fs o) 9%nat).
Lemma face_traces : forall asserts s order o f l m fs ns, face_functions asserts s order o f = Some l -> the_face s f m fs ns ->
  face_good fs s order o ->
  Forall2 (fun jk g => forall p x, length p = dimension fs -> transform m p = Some x -> eval g x = Some (face_trace fs (placed fs o p) jk))
    (trace_orders fs order) l.
Proof.
  intros asserts s order o f l m fs ns H (Hm & Hf & Hn) G. unfold face_functions in H. bind_inv.
  destruct s; unfold default_conforming_sets in *; try discriminate; bind_inv; injs; cbn [face_sets] in *; try discriminate;
  lazymatch goal with H : select _ _ ?x = Some _ |- _ => 
      lazymatch goal with K : _ = Some x |- _ => rename H into S; unfold_sets K; apply positive_inv in K; rename K into A end end;
  apply select_spec in S; destruct S as (t & Hin & Eo & Ef & <-);
  destruct (in_all_sets _ _ _ A Hin) as (gs & E & F); clear A Hin;
  explicit_sets E; repeat match type of E with _ \/ _ => destruct E as [E|E] end; try contradiction;
  injection E; clear E; intros E1 E2 E3; rewrite <- E3 in Eo; rewrite <- E2 in Ef; subst o f gs; clear E2 E3;
  cbn in Hm, Hf, Hn; injs; cbn [trace_orders dimension].
  all: lazymatch type of F with
    | all [_] = Some _ => apply (all_forall2_id _ (fun _ => _) _ [(0, 0)%nat] _ F); intros jk g Hjk Hg
    | all (map _ (loop _ _)) = Some _ => refine (all_forall2 _ _ _ _ _ _ _ F _); intros jk g Hjk Hg
    | _ => refine (all_forall2_id _ _ _ _ _ F _); intros jk g Hjk Hg
    end; classify_function Hg; intros p x Hp Hx; points_of_dim; cbn in Hx; injection Hx as <-;
    try (assert (jk = (0, 0)%nat) as -> by
      (first [destruct Hjk as [<-|[]]; reflexivity|destruct (G eq_refl) as [K|(_ & [K|K])]; [eapply square_orders_2; [|exact Hjk]; lia|eapply square_orders_2; [|exact Hjk]; lia|exfalso; cbn in K; lia]]));
    try (exfalso; destruct (G eq_refl) as [K|(K & _)]; [exact (no_square_orders _ _ K Hjk)|discriminate K]).
  all: trace_value.
Qed.

Lemma node_traces : forall asserts s order a l m fs ns f k, node_functions asserts s order a = Some l -> the_face s f m fs ns ->
  nth_error ns k = Some a ->
  exists g, l = [g] /\ forall p x, internal fs p -> transform m p = Some x -> eval g x = Some (wt fs p k).
Proof.
  intros asserts s order a l m fs ns f k H (Hm & Hf & Hn) Hk.
  assert (L := node_length _ _ _ _ _ H). destruct l as [|g [|g' l]]; try discriminate L.
  exists g. split; [reflexivity|]. intros p x Ip Hx.
  assert (U := attached_node_unique _ _ _ _ _ (attached_node _ _ _ _ _ _ H (or_introl eq_refl))). clear H L.
  assert (Lp := internal_length _ _ _ Ip).
  destruct s; try contradiction U; enum 7%nat f; cbn in Hm, Hf, Hn; try discriminate Hm; injs;
    enum 5%nat k; cbn in Hk; try discriminate Hk; injs; cbn [dimension] in Lp; points_of_dim; cbn in Hx; injection Hx as <-;
    try trace_value.
  1-4: values; rewrite plus_tiny_same by lra; apply f_equal; field.
  all: assert (Q : r0 = 1 -> r = 0) by (unfold internal in Ip; cbn in Ip; injection Ip as Ip;
         repeat (apply andb_true_iff in Ip; destruct Ip as [Ip ?]); repeat match goal with K : _ = true |- _ => apply leb_true in K end; lra).
  all: values; apply f_equal; destruct (Req_dec r0 1) as [E|E];
    [rewrite (Q E), E in *; field; apply plus_tiny_nonzero|rewrite plus_tiny_same by lra; field; lra].
Qed.

(** the values of an edge function, for the positions of its first and second node on the face *)
Definition edge_sign (s : shape) : R := match s with Cube => -1 | _ => 1 end.
Definition edge_trace (fs : shape) (sign : R) (w : nat -> R) (h0 h1 j : nat) : R :=
  match fs with
  | Triangle => w h0 * w h1 * LobattoPolynomial j (sign * (w h0 - w h1))
  | Square =>
      (w h0 + w h1) * (w h0 + w (3 - h1)%nat) * (w h1 + w (3 - h0)%nat) *
      LobattoPolynomial j (sign * (w h0 + w (3 - h1)%nat - w h1 - w (3 - h0)%nat))
  | _ => 0
  end.
Lemma edge_traces : forall asserts s order o e l a0 a1 m fs ns f k0 k1, edge_functions asserts s order o e = Some l ->
  getCodim2EntityLocalIndices s e = Some [a0; a1] -> the_face s f m fs ns -> nth_error ns k0 = Some a0 -> nth_error ns k1 = Some a1 ->
  (o < 2)%nat /\
  Forall2 (fun j g => forall p x, length p = dimension fs -> transform m p = Some x ->
      eval g x = Some (edge_trace fs (edge_sign s) (wt fs p) (if Nat.eqb o 0 then k0 else k1) (if Nat.eqb o 0 then k1 else k0) j))
    (loop 2 order) l.
Proof.
  intros asserts s order o e l a0 a1 m fs ns f k0 k1 H Ha (Hm & Hf & Hn) H0 H1. unfold edge_functions in H. bind_inv.
  destruct s; unfold default_conforming_sets in *; try discriminate; bind_inv; injs; cbn [edge_sets] in *; try discriminate;
  lazymatch goal with H : select _ _ ?x = Some _ |- _ => 
      lazymatch goal with K : _ = Some x |- _ => rename H into S; unfold_sets K; apply positive_inv in K; rename K into A end end;
  apply select_spec in S; destruct S as (t & Hin & Eo & Ef & <-);
  destruct (in_all_sets _ _ _ A Hin) as (gs & E & F); clear A Hin;
  explicit_sets E; repeat match type of E with _ \/ _ => destruct E as [E|E] end; try contradiction;
  injection E; clear E; intros E1 E2 E3; rewrite <- E3 in Eo; rewrite <- E2 in Ef; subst o e gs; clear E2 E3;
  (split; [lia|]); cbn in Ha; injection Ha as <- <-;
  enum 7%nat f; cbn in Hm, Hf, Hn; try discriminate Hm; injs;
    enum 5%nat k0; cbn in H0; try discriminate H0; enum 5%nat k1; cbn in H1; try discriminate H1; 
  refine (all_forall2_id _ _ _ _ _ F _); intros j g Hj Hg; classify_function Hg; intros p x Hp Hx; cbn [dimension] in Hp; points_of_dim;
  cbn in Hx; injection Hx as <-; trace_value.
Qed.
