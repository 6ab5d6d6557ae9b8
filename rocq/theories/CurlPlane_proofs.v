(** Linear independence of the functions of Nedelec on the triangle. *)
From Coq Require Import List Arith Bool ZArith Reals Lra Lia.
From Verif Require Import Legendre_model Legendre_proofs RefGeometry_model RefGeometry_spec RefGeometry_proofs BasisFunctions_model BasisFunctions_proofs
  BasisSets_model BasisSizes_spec Independence_spec FreeFamilies_proofs Independence_proofs IndependenceDG_proofs IndependenceRefuted_proofs
  CurlBasis_model CurlBasis_spec CurlBasis_proofs CurlTraces_proofs CurlSizes_proofs.
Import ListNotations.
Local Open Scope R_scope.

(** ** Polynomials *)
Definition is_poly (f : R -> R) : Prop := exists n a, poly n f a.
Lemma is_poly_const : forall c, is_poly (fun _ => c).
Proof. intros c. exists 0%nat, c. apply poly_const. Qed.
Lemma is_poly_x : is_poly (fun x => x).
Proof. exists 1%nat, 1. apply (poly_ext 1 (fun x => x * 1) _ 1 1 (poly_x 0 _ 1 (poly_const 1))); [intros; ring|reflexivity]. Qed.
Lemma is_poly_plus : forall f g, is_poly f -> is_poly g -> is_poly (fun x => f x + g x).
Proof.
  intros f g (n & a & Hf) (m & b & Hg). exists (S (n + m)), (0 + 0). apply poly_plus; eapply poly_bump_to; eauto; lia.
Qed.
Lemma is_poly_ext : forall f g, is_poly f -> (forall x, g x = f x) -> is_poly g.
Proof. intros f g (n & a & Hf) E. exists n, a. eapply poly_ext; eauto. Qed.
Lemma is_poly_mult : forall f g, is_poly f -> is_poly g -> is_poly (fun x => f x * g x).
Proof.
  intros f g (n & a & Hf) Hg. revert f a Hf. induction n as [|n IH]; intros f a Hf.
  - destruct Hg as (m & b & Hg). exists m, (a * b). apply (poly_ext m (fun x => a * g x) _ (a * b) (a * b)); [apply poly_scale; exact Hg| |reflexivity].
    intros x. cbn in Hf. rewrite Hf. reflexivity.
  - destruct Hf as (h & b & Hh & E). specialize (IH h a Hh). destruct IH as (k & c & IH).
    apply is_poly_ext with (f := fun x => b * g x + x * (h x * g x)); [|intros x; rewrite E; ring].
    apply is_poly_plus; [|exists (S k), c; apply poly_x; exact IH].
    destruct Hg as (m & d & Hg). exists m, (b * d). apply poly_scale. exact Hg.
Qed.
Lemma is_poly_opp : forall f, is_poly f -> is_poly (fun x => - f x).
Proof. intros f H. apply is_poly_ext with (f := fun x => (-1) * f x); [apply is_poly_mult; [apply is_poly_const|exact H]|intros; ring]. Qed.
Lemma is_poly_minus : forall f g, is_poly f -> is_poly g -> is_poly (fun x => f x - g x).
Proof. intros f g Hf Hg. apply (is_poly_plus f (fun x => - g x) Hf). apply is_poly_opp. exact Hg. Qed.
Lemma is_poly_div : forall f c, is_poly f -> is_poly (fun x => f x / c).
Proof. intros f c H. apply is_poly_mult; [exact H|apply is_poly_const]. Qed.
Ltac polys := repeat first [apply is_poly_const | apply is_poly_x | assumption | apply is_poly_plus | apply is_poly_minus | apply is_poly_opp | apply is_poly_mult | apply is_poly_div].
Lemma is_poly_lobatto : forall o f, (o <= 4)%nat -> is_poly f -> is_poly (fun x => LobattoPolynomial o (f x)).
Proof. intros o f H Hf. destruct o as [|[|[|[|[|o]]]]]; try lia; cbn [LobattoPolynomial]; polys. Qed.
Lemma poly_drop : forall n f, poly (S n) f 0 -> exists a, poly n f a.
Proof.
  induction n as [|n IH]; intros f (g & b & Hg & E).
  - exists b. cbn in *. intros x. rewrite E, Hg. ring.
  - destruct (IH g Hg) as (a & Ha). exists a. exists g, b. auto.
Qed.
Lemma poly_zero : forall f u v, is_poly f -> u < v -> (forall x, u < x < v -> f x = 0) -> forall x, f x = 0.
Proof.
  intros f u v (n & a & Hf) L Z. revert f a Hf Z. induction n as [|n IH]; intros f a Hf Z.
  - cbn in Hf. intros x. rewrite Hf, <- (Hf ((u + v) / 2)). apply Z. lra.
  - destruct (many_points u v (S (S n)) L) as (rs & N & Len & Hrs).
    assert (a = 0) as -> by (apply (poly_roots (S n) f a rs Hf N); [lia|intros r Hr; apply Z; apply Hrs; exact Hr]).
    destruct (poly_drop n f Hf) as (a' & Ha'). exact (IH f a' Ha' Z).
Qed.

(** ** Combinations *)
Definition val (f : basis_function) (p : point) : R := match eval f p with Some v => v | None => 0 end.
Lemma comb_cons : forall c cs v vs, combination (c :: cs) (v :: vs) = c * v + combination cs vs.
Proof. intros. unfold combination, sum. reflexivity. Qed.
Lemma comb_nil : forall vs, combination [] vs = 0.
Proof. reflexivity. Qed.
Lemma comb_scale : forall {A} (g : A -> R) a l cs, combination cs (map (fun m => a * g m) l) = a * combination cs (map g l).
Proof.
  intros A g a. induction l as [|m l IH]; intros [|c cs]; cbn [map]; rewrite ?comb_nil; try (unfold combination, sum; cbn; ring).
  rewrite !comb_cons, IH. ring.
Qed.
Lemma comb_poly : forall {A} (g : A -> R -> R) l cs, (forall m, In m l -> is_poly (g m)) -> is_poly (fun t => combination cs (map (fun m => g m t) l)).
Proof.
  intros A g. induction l as [|m l IH]; intros [|c cs] H; try (apply is_poly_ext with (f := fun _ => 0); [apply is_poly_const|intros; reflexivity]).
  apply is_poly_ext with (f := fun t => c * g m t + combination cs (map (fun m => g m t) l)); [|intros; apply comb_cons].
  apply is_poly_plus; [apply is_poly_mult; [apply is_poly_const|apply H; left; reflexivity]|apply IH; intros; apply H; right; assumption].
Qed.
Definition zeros (cs : list R) : Prop := Forall (fun c => c = 0) cs.
Lemma split3 : forall (L : list basis_function) (A B C : basis_function -> curl_function) cs, length cs = length (flat_map (fun i => [A i; B i; C i]) L) ->
  exists c0 c1 c2, length c0 = length L /\ length c1 = length L /\ length c2 = length L /\
    (forall g : curl_function -> R, combination cs (map g (flat_map (fun i => [A i; B i; C i]) L)) =
       combination c0 (map (fun i => g (A i)) L) + combination c1 (map (fun i => g (B i)) L) + combination c2 (map (fun i => g (C i)) L)) /\
    (zeros c0 -> zeros c1 -> zeros c2 -> zeros cs).
Proof.
  induction L as [|i L IH]; intros A B C cs H.
  - destruct cs; [|discriminate]. exists [], [], []. repeat split; auto. intros g. unfold combination, sum. cbn. ring.
  - destruct cs as [|a [|b [|c cs]]]; try discriminate. cbn [flat_map app length] in H.
    destruct (IH A B C cs) as (c0 & c1 & c2 & L0 & L1 & L2 & G & Z); [lia|].
    exists (a :: c0), (b :: c1), (c :: c2). cbn [length]. repeat split; try lia.
    + intros g. cbn [flat_map app map]. rewrite !comb_cons, G. ring.
    + intros Z0 Z1 Z2. inversion Z0; inversion Z1; inversion Z2; subst. repeat constructor; auto. apply Z; assumption.
Qed.
Lemma split2 : forall (L : list basis_function) (A B : basis_function -> curl_function) cs, length cs = length (flat_map (fun i => [A i; B i]) L) ->
  exists c0 c1, length c0 = length L /\ length c1 = length L /\
    (forall g : curl_function -> R, combination cs (map g (flat_map (fun i => [A i; B i]) L)) =
       combination c0 (map (fun i => g (A i)) L) + combination c1 (map (fun i => g (B i)) L)) /\
    (zeros c0 -> zeros c1 -> zeros cs).
Proof.
  induction L as [|i L IH]; intros A B cs H.
  - destruct cs; [|discriminate]. exists [], []. repeat split; auto. intros g. unfold combination, sum. cbn. ring.
  - destruct cs as [|a [|b cs]]; try discriminate. cbn [flat_map app length] in H.
    destruct (IH A B cs) as (c0 & c1 & L0 & L1 & G & Z); [lia|].
    exists (a :: c0), (b :: c1). cbn [length]. repeat split; try lia.
    + intros g. cbn [flat_map app map]. rewrite !comb_cons, G. ring.
    + intros Z0 Z1. inversion Z0; inversion Z1; subst. repeat constructor; auto. apply Z; assumption.
Qed.
Lemma comb_app : forall cs1 cs2 vs1 vs2, length cs1 = length vs1 -> combination (cs1 ++ cs2) (vs1 ++ vs2) = combination cs1 vs1 + combination cs2 vs2.
Proof.
  induction cs1 as [|c cs1 IH]; intros cs2 [|v vs1] vs2 H; try discriminate; cbn [app]; [rewrite comb_nil; ring|].
  rewrite !comb_cons, IH by (cbn in H; lia). ring.
Qed.

(** ** The modulators *)
Lemma line_val_poly : forall asserts order l f, (order <= 6)%nat -> createDGBasisFunctionSet1DH1Line asserts order = Some l -> In f l -> is_poly (fun x => val f [x]).
Proof.
  intros asserts order l f Ho H Hf. destruct (line_functions _ _ _ _ H Hf) as [->|[(e & ->)|(o & L & ->)]]; unfold val; cbn.
  - polys.
  - polys.
  - apply is_poly_div. apply is_poly_mult; [polys|apply is_poly_lobatto; [lia|polys]].
Qed.
Lemma line_vanishes : forall asserts order l cs, (order <= 6)%nat -> createDGBasisFunctionSet1DH1Line asserts order = Some l -> length cs = length l ->
  (forall x, 0 < x < 1 -> combination cs (map (fun f => val f [x]) l) = 0) -> zeros cs.
Proof.
  intros asserts order l cs Ho H L Z. apply (dg_independent asserts Line order l Ho H cs L).
  intros p vs Hp Hv.
  assert (exists x, p = [x]) as (x & ->).
  { unfold internal in Hp. destruct p as [|x [|]]; try discriminate. exists x. reflexivity. }
  assert (vs = map (fun f => val f [x]) l) as ->.
  { clear - Hv. revert vs Hv. induction l as [|f l IH]; intros [|v vs] Hv; try discriminate; [reflexivity|]. cbn [map] in *.
    injection Hv as E Hv. f_equal; [unfold val; rewrite E; reflexivity|auto]. }
  apply (poly_zero (fun x => combination cs (map (fun f => val f [x]) l)) 0 1); [|lra|exact Z].
  apply comb_poly. intros f Hf. exact (line_val_poly _ _ _ _ Ho H Hf).
Qed.
Lemma triangle_val_poly : forall asserts order l f (a b c d : R), (order <= 6)%nat -> createDGBasisFunctionSet2DH1Triangle asserts order = Some l -> In f l ->
  is_poly (fun t => val f [a + t * b; c + t * d]).
Proof.
  intros asserts order l f a b c d Ho H Hf.
  destruct (triangle_functions _ _ _ _ H Hf) as [->|[(n & Hn & ->)|[(i & j & o & Hi & Hj & Lo & ->)|(o0 & o1 & Lo & ->)]]]; unfold val.
  - cbn. polys.
  - destruct n as [|[|[|n]]]; try lia; cbn; polys.
  - destruct i as [|[|[|i]]]; try lia; destruct j as [|[|[|j]]]; try lia; cbn -[LobattoPolynomial]; repeat first [apply is_poly_lobatto; [lia|] | progress polys].
  - cbn -[LobattoPolynomial]; repeat first [apply is_poly_lobatto; [lia|] | progress polys].
Qed.
Lemma triangle_vanishes : forall asserts order l cs, (order <= 6)%nat -> createDGBasisFunctionSet2DH1Triangle asserts order = Some l -> length cs = length l ->
  (forall x y, 0 < x -> 0 < y -> x + y < 1 -> combination cs (map (fun f => val f [x; y]) l) = 0) -> zeros cs.
Proof.
  intros asserts order l cs Ho H L Z. apply (dg_independent asserts Triangle order l Ho H cs L).
  intros p vs Hp Hv.
  assert (exists x y, p = [x; y] /\ 0 <= x /\ 0 <= y /\ x + y <= 1) as (x & y & -> & Hx & Hy & Hxy).
  { unfold internal in Hp. destruct p as [|x [|y [|]]]; try discriminate. exists x, y. split; [reflexivity|]. unfold isInternalPoint in Hp.
    apply Some_inj in Hp. rewrite !andb_true_iff, !leb_true in Hp. lra. }
  assert (vs = map (fun f => val f [x; y]) l) as ->.
  { clear - Hv. revert vs Hv. induction l as [|f l IH]; intros [|v vs] Hv; try discriminate; [reflexivity|]. cbn [map] in *.
    injection Hv as E Hv. f_equal; [unfold val; rewrite E; reflexivity|auto]. }
  assert (forall t, combination cs (map (fun f => val f [x + t * (1/3 - x); y + t * (1/3 - y)]) l) = 0) as G.
  { apply (poly_zero (fun t => combination cs (map (fun f => val f [x + t * (1/3 - x); y + t * (1/3 - y)]) l)) 0 1).
    - apply (comb_poly (fun f t => val f [x + t * (1/3 - x); y + t * (1/3 - y)])). intros f Hf. exact (triangle_val_poly _ _ _ _ _ _ _ _ Ho H Hf).
    - lra.
    - intros t Ht. apply Z.
      + replace (x + t * (1 / 3 - x)) with ((1 - t) * x + t * (1/3)) by ring. assert (0 <= (1 - t) * x) by (apply Rmult_le_pos; lra). lra.
      + replace (y + t * (1 / 3 - y)) with ((1 - t) * y + t * (1/3)) by ring. assert (0 <= (1 - t) * y) by (apply Rmult_le_pos; lra). lra.
      + assert (0 <= (1 - t) * (1 - x - y)) by (apply Rmult_le_pos; lra). lra. }
  specialize (G 0). replace (x + 0 * (1 / 3 - x)) with x in G by ring. replace (y + 0 * (1 / 3 - y)) with y in G by ring. exact G.
Qed.

(** ** The set *)
Lemma edge_value : forall asserts order L s m x y, createDGBasisFunctionSet1DH1Line asserts order = Some L -> In m L ->
  curl_eval (EdgeNedelec2D s m) [x; y] =
  Some [fst (sideFunction s x y) * val m [modulatorCoord s x y]; snd (sideFunction s x y) * val m [modulatorCoord s x y]].
Proof.
  intros asserts order L s m x y H Hm. destruct (line_function_value asserts order L m (modulatorCoord s x y) H Hm) as (v & E).
  cbn [curl_eval]. unfold EdgeNedelec2D_eval, val. rewrite E. reflexivity.
Qed.
Lemma interior_value : forall asserts order L t m x y, createDGBasisFunctionSet2DH1Triangle asserts order = Some L -> In m L ->
  curl_eval (InteriorNedelec2D t m) [x; y] = Some [fst (typePart t x y) * val m [x; y]; snd (typePart t x y) * val m [x; y]].
Proof.
  intros asserts order L t m x y H Hm. destruct (triangle_function_value asserts order L m x y H Hm) as (v & E).
  cbn [curl_eval]. unfold InteriorNedelec2D_eval, val. rewrite E. reflexivity.
Qed.
Lemma map_some_ext : forall {A} (g : A -> option (list R)) h l, (forall m, In m l -> g m = Some (h m)) -> map g l = map Some (map h l).
Proof. intros A g h l H. rewrite map_map. apply map_ext_in. exact H. Qed.
Definition both (f : curl_function) (x y : R) : list R := match curl_eval f [x; y] with Some v => v | None => [] end.
Lemma line_set : forall asserts order, (1 <= order)%nat -> exists L T, createDGBasisFunctionSet1DH1Line asserts (order - 1) = Some L /\
  ((order = 1%nat /\ T = []) \/ ((2 <= order)%nat /\ createDGBasisFunctionSet2DH1Triangle asserts (order - 2) = Some T)) /\
  createDGBasisFunctionSet2DNedelec asserts order =
    Some (flat_map (fun i => [EdgeNedelec2D 0 i; EdgeNedelec2D 1 i; EdgeNedelec2D 2 i]) L ++ flat_map (fun i => [InteriorNedelec2D 0 i; InteriorNedelec2D 1 i]) T).
Proof.
  intros asserts order H. destruct (nedelec_2D_exists asserts order H) as (l & E). unfold createDGBasisFunctionSet2DNedelec in *.
  destruct (Nat.eqb_spec order 0); [lia|]. destruct (createDGBasisFunctionSet1DH1Line asserts (order - 1)) as [L|]; [|discriminate]. cbn [bind] in *.
  destruct (Nat.ltb_spec 1 order).
  - destruct (createDGBasisFunctionSet2DH1Triangle asserts (order - 2)) as [T|]; [|discriminate]. exists L, T. split; [reflexivity|]. split; [right; auto|reflexivity].
  - exists L, []. split; [reflexivity|]. split; [left; split; [lia|reflexivity]|]. cbn [flat_map]. rewrite app_nil_r. reflexivity.
Qed.
Lemma internal_triangle : forall x y, 0 <= x -> 0 <= y -> x + y <= 1 -> internal Triangle [x; y].
Proof. intros. unfold internal, isInternalPoint. f_equal. rewrite !andb_true_iff, !leb_true. lra. Qed.

Lemma nedelec_2D_independent : forall asserts order l, (order <= 7)%nat -> createDGBasisFunctionSet2DNedelec asserts order = Some l -> curl_independent Triangle l.
Proof.
  intros asserts order l Ho H.
  assert (1 <= order)%nat as H1 by (destruct order; [discriminate|lia]).
  destruct (line_set asserts order H1) as (L & T & HL & HT & E). rewrite E in H. apply Some_inj in H. subst l.
  intros cs Len Z. rewrite app_length in Len.
  set (A := flat_map (fun i => [EdgeNedelec2D 0 i; EdgeNedelec2D 1 i; EdgeNedelec2D 2 i]) L) in *.
  set (B := flat_map (fun i => [InteriorNedelec2D 0 i; InteriorNedelec2D 1 i]) T) in *.
  assert (exists ca cb, cs = ca ++ cb /\ length ca = length A /\ length cb = length B) as (ca & cb & -> & La & Lb).
  { exists (firstn (length A) cs), (skipn (length A) cs). rewrite firstn_skipn, firstn_length, skipn_length. split; [reflexivity|lia]. }
  destruct (split3 L _ _ _ ca La) as (c0 & c1 & c2 & L0 & L1 & L2 & GA & ZA).
  destruct (split2 T _ _ cb Lb) as (d0 & d1 & M0 & M1 & GB & ZB).
  pose (q := fun c u => combination c (map (fun m => val m [u]) L)).
  pose (r := fun d x y => combination d (map (fun m => val m [x; y]) T)).
  assert (forall m, In m T -> forall t x y, curl_eval (InteriorNedelec2D t m) [x; y] = Some [fst (typePart t x y) * val m [x; y]; snd (typePart t x y) * val m [x; y]]) as VT.
  { intros m Hm t x y. destruct HT as [[_ ->]|[_ HT]]; [destruct Hm|]. exact (interior_value _ _ _ t m x y HT Hm). }
  assert (forall k x y, (k < 2)%nat -> 0 <= x -> 0 <= y -> x + y <= 1 ->
    nth k [fst (sideFunction 0 x y); snd (sideFunction 0 x y)] 0 * q c0 x + nth k [fst (sideFunction 1 x y); snd (sideFunction 1 x y)] 0 * q c1 y
    + nth k [fst (sideFunction 2 x y); snd (sideFunction 2 x y)] 0 * q c2 (1 - y)
    + nth k [fst (typePart 0 x y); snd (typePart 0 x y)] 0 * r d0 x y + nth k [fst (typePart 1 x y); snd (typePart 1 x y)] 0 * r d1 x y = 0) as EQ.
  { intros k x y Hk Hx Hy Hxy.
    assert (map (fun f => curl_eval f [x; y]) (A ++ B) = map Some (map (fun f => both f x y) (A ++ B))) as Ev.
    { apply map_some_ext. intros f Hf. unfold both. apply in_app_or in Hf. destruct Hf as [Hf|Hf].
      - apply in_flat_map in Hf. destruct Hf as (m & Hm & Hf). cbn [In] in Hf.
        destruct Hf as [<-|[<-|[<-|[]]]]; rewrite (edge_value _ _ _ _ _ _ _ HL Hm); reflexivity.
      - apply in_flat_map in Hf. destruct Hf as (m & Hm & Hf). cbn [In] in Hf. destruct Hf as [<-|[<-|[]]]; rewrite (VT m Hm); reflexivity. }
    pose proof (Z [x; y] _ (internal_triangle x y Hx Hy Hxy) Ev k Hk) as Zk. rewrite !map_map in Zk. rewrite map_app in Zk.
    rewrite comb_app in Zk by (rewrite map_length; exact La). unfold A, B in Zk.
    rewrite (GA (fun f => nth k (both f x y) 0)), (GB (fun f => nth k (both f x y) 0)) in Zk.
    assert (forall s c, combination c (map (fun i => nth k (both (EdgeNedelec2D s i) x y) 0) L)
      = nth k [fst (sideFunction s x y); snd (sideFunction s x y)] 0 * q c (modulatorCoord s x y)) as Q.
    { intros s c. unfold q. rewrite <- comb_scale. f_equal. apply map_ext_in. intros m Hm. unfold both. rewrite (edge_value _ _ _ _ _ _ _ HL Hm).
      destruct k as [|[|k]]; [reflexivity|reflexivity|lia]. }
    assert (forall t d, combination d (map (fun i => nth k (both (InteriorNedelec2D t i) x y) 0) T)
      = nth k [fst (typePart t x y); snd (typePart t x y)] 0 * r d x y) as R'.
    { intros t d. unfold r. rewrite <- comb_scale. f_equal. apply map_ext_in. intros m Hm. unfold both. rewrite (VT m Hm).
      destruct k as [|[|k]]; [reflexivity|reflexivity|lia]. }
    rewrite !Q, !R' in Zk. cbn [modulatorCoord] in Zk. lra. }
  assert (forall u, 0 < u < 1 -> q c0 u = 0) as Q0.
  { intros u Hu. pose proof (EQ 0%nat u 0 ltac:(lia) ltac:(lra) ltac:(lra) ltac:(lra)) as G. cbn in G. lra. }
  assert (forall u, 0 < u < 1 -> q c2 u = 0) as Q2.
  { intros u Hu. pose proof (EQ 1%nat 0 (1 - u) ltac:(lia) ltac:(lra) ltac:(lra) ltac:(lra)) as G. cbn in G. replace (1 - (1 - u)) with u in G by ring. lra. }
  assert (forall u, 0 < u < 1 -> q c1 u = 0) as Q1.
  { intros u Hu.
    pose proof (EQ 0%nat (1 - u) u ltac:(lia) ltac:(lra) ltac:(lra) ltac:(lra)) as G0. pose proof (EQ 1%nat (1 - u) u ltac:(lia) ltac:(lra) ltac:(lra) ltac:(lra)) as G1.
    cbn in G0, G1. rewrite (Q0 (1 - u)), (Q2 (1 - u)) in G0, G1 by lra. lra. }
  assert (forall x y, 0 < x -> 0 < y -> x + y < 1 -> r d0 x y = 0 /\ r d1 x y = 0) as RR.
  { intros x y Hx Hy Hxy.
    pose proof (EQ 0%nat x y ltac:(lia) ltac:(lra) ltac:(lra) ltac:(lra)) as G0. pose proof (EQ 1%nat x y ltac:(lia) ltac:(lra) ltac:(lra) ltac:(lra)) as G1.
    cbn in G0, G1. rewrite (Q0 x), (Q1 y), (Q2 (1 - y)) in G0, G1 by lra.
    assert (x * r d0 x y + (1 - y) * r d1 x y = 0) as K0.
    { apply (Rmult_eq_reg_l y); [|lra]. lra. }
    assert ((1 - x) * r d0 x y + y * r d1 x y = 0) as K1.
    { apply (Rmult_eq_reg_l x); [|lra]. lra. }
    split; (apply (Rmult_eq_reg_l (1 - x - y)); [|lra]).
    - replace ((1 - x - y) * r d0 x y) with ((1 - y) * ((1 - x) * r d0 x y + y * r d1 x y) - y * (x * r d0 x y + (1 - y) * r d1 x y)) by ring.
      rewrite K0, K1. ring.
    - replace ((1 - x - y) * r d1 x y) with ((1 - x) * (x * r d0 x y + (1 - y) * r d1 x y) - x * ((1 - x) * r d0 x y + y * r d1 x y)) by ring.
      rewrite K0, K1. ring. }
  apply Forall_app. split.
  - apply ZA; apply (line_vanishes asserts (order - 1) L); try exact HL; try lia; assumption.
  - apply ZB.
    + destruct HT as [[_ ->]|[H2 HT]]; [destruct d0; [constructor|discriminate]|].
      apply (triangle_vanishes asserts (order - 2) T); [lia|exact HT|exact M0|intros x y Hx Hy Hxy; apply RR; assumption].
    + destruct HT as [[_ ->]|[H2 HT]]; [destruct d1; [constructor|discriminate]|].
      apply (triangle_vanishes asserts (order - 2) T); [lia|exact HT|exact M1|intros x y Hx Hy Hxy; apply RR; assumption].
Qed.

Lemma comb_zeros : forall n vs, combination (repeat 0 n) vs = 0.
Proof. induction n as [|n IH]; intros [|v vs]; try reflexivity. cbn [repeat]. rewrite comb_cons, IH. ring. Qed.
Lemma nedelec_2D_dependent : forall asserts order l, (8 <= order)%nat -> createDGBasisFunctionSet2DNedelec asserts order = Some l -> ~ curl_independent Triangle l.
Proof.
  intros asserts order l Ho H Hi. destruct (line_set asserts order ltac:(lia)) as (L & T & HL & _ & E). rewrite E in H. apply Some_inj in H. subst l.
  apply (dg_dependent asserts Line (order - 1) L); [lia|discriminate|exact HL|].
  intros cs Len Z.
  set (B := flat_map (fun i => [InteriorNedelec2D 0 i; InteriorNedelec2D 1 i]) T) in *.
  pose (ca := flat_map (fun c => [c; 0; 0]) cs).
  assert (forall g, combination ca (map g (flat_map (fun i => [EdgeNedelec2D 0 i; EdgeNedelec2D 1 i; EdgeNedelec2D 2 i]) L)) = combination cs (map (fun i => g (EdgeNedelec2D 0 i)) L)) as G.
  { intros g. unfold ca. clear - Len. revert cs Len. induction L as [|m L IH]; intros [|c cs] Len; try discriminate; [reflexivity|].
    cbn [flat_map app map]. rewrite !comb_cons, IH by (cbn in Len; lia). ring. }
  assert (length ca = length (flat_map (fun i => [EdgeNedelec2D 0 i; EdgeNedelec2D 1 i; EdgeNedelec2D 2 i]) L)) as La.
  { unfold ca. clear - Len. revert cs Len. induction L as [|m L IH]; intros [|c cs] Len; try discriminate; [reflexivity|]. cbn in *. rewrite IH; lia. }
  assert (zeros (ca ++ repeat 0 (length B))) as ZZ.
  { apply Hi; [rewrite !app_length, repeat_length, La; reflexivity|]. intros p vs Hp Hv k Hk. rewrite map_app in Hv.
    assert (vs = map (fun f => match curl_eval f p with Some v => v | None => [] end)
      (flat_map (fun i => [EdgeNedelec2D 0 i; EdgeNedelec2D 1 i; EdgeNedelec2D 2 i]) L ++ B)) as ->.
    { rewrite <- map_app in Hv. clear - Hv. revert vs Hv. induction (flat_map _ L ++ B) as [|f l IH]; intros [|v vs] Hv; try discriminate; [reflexivity|].
      cbn [map] in *. injection Hv as E Hv. rewrite E. f_equal. auto. }
    rewrite map_map, map_app, comb_app by (rewrite map_length; exact La).
    rewrite (G (fun f => nth k (match curl_eval f p with Some v => v | None => [] end) 0)), comb_zeros, Rplus_0_r.
    assert (exists x y, p = [x; y] /\ 0 <= x /\ 0 <= y /\ x + y <= 1) as (x & y & -> & Hx & Hy & Hxy).
    { unfold internal in Hp. destruct p as [|x [|y [|]]]; try discriminate. exists x, y. split; [reflexivity|]. unfold isInternalPoint in Hp.
      apply Some_inj in Hp. rewrite !andb_true_iff, !leb_true in Hp. lra. }
    rewrite (map_ext_in _ (fun m => nth k [fst (sideFunction 0 x y); snd (sideFunction 0 x y)] 0 * val m [x])).
    2:{ intros m Hm. rewrite (edge_value _ _ _ _ _ _ _ HL Hm). cbn [dimension] in Hk. destruct k as [|[|k]]; [reflexivity|reflexivity|lia]. }
    rewrite comb_scale. rewrite (Z [x] (map (fun m => val m [x]) L)); [ring| |].
    - unfold internal, isInternalPoint. f_equal. rewrite !andb_true_iff, !leb_true. lra.
    - rewrite map_map. apply map_ext_in. intros m Hm. destruct (line_function_value asserts (order - 1) L m x HL Hm) as (v & Ev). unfold val. rewrite Ev. reflexivity. }
  apply Forall_app in ZZ. destruct ZZ as [ZZ _]. unfold ca in ZZ. clear - ZZ. induction cs as [|c cs IH]; [constructor|].
  cbn in ZZ. inversion ZZ as [|? ? Ec Z1]; subst. inversion Z1 as [|? ? _ Z2]; subst. inversion Z2; subst. constructor; auto.
Qed.
