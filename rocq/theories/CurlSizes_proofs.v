(** The number of curl conforming functions, and the points in which they and their curls exist. *)
From Coq Require Import List Arith Bool ZArith Lia.
From Verif Require Import RefGeometry_model RefGeometry_spec BasisFunctions_model BasisFunctions_spec BasisFunctions_proofs BasisSets_model BasisSizes_spec
  BasisSizes_proofs IndependenceRefuted_proofs CurlBasis_model CurlBasis_spec CurlBasis_proofs CurlTraces_proofs.
Import ListNotations.

Lemma total_sub : forall c n, total (fun i => (n - i) * c) n = total S n * c.
Proof. intros c n. rewrite total_mult. f_equal. exact (total_down (fun i => i) n). Qed.
Lemma face_count : forall B (f : nat -> nat -> list B) k order c, (1 <= k) -> (forall l m, length (f l m) = c) ->
  length (flat_map (fun l => flat_map (f l) (loop (l + k) order)) (loop k order)) = total S (S order - k) * c.
Proof.
  intros B f k order c Hk Hf. rewrite flat_loop. rewrite <- total_sub. apply total_ext. intros i Hi.
  rewrite flat_loop. rewrite (total_ext _ (fun _ => c)) by (intros; apply Hf). rewrite total_const. f_equal. lia.
Qed.
Lemma interior_count : forall B (f : nat -> nat -> nat -> list B) k order c, (1 <= k) -> (forall l m n, length (f l m n) = c) ->
  length (flat_map (fun l => flat_map (fun m => flat_map (f l m) (loop (m + l + k) order)) (loop (l + k) order)) (loop k order))
  = total (fun i => total S (S i)) (S order - k) * c.
Proof.
  intros B f k order c Hk Hf. rewrite flat_loop.
  rewrite (total_ext _ (fun i => total S (S order - k - i) * c)).
  - rewrite total_mult. f_equal. exact (total_down (fun i => total S i) _).
  - intros l Hl. rewrite flat_loop. replace (S order - (l + k)) with (S order - k - l) by lia. rewrite <- total_sub. apply total_ext.
    intros m Hm. rewrite flat_loop, (total_ext _ (fun _ => c)) by (intros; apply Hf). rewrite total_const. f_equal. lia.
Qed.
Lemma nedelec_size : forall order, 2 * length (createDGBasisFunctionSet3DNedelec order) = order * (order + 2) * (order + 3).
Proof.
  intros order. unfold createDGBasisFunctionSet3DNedelec. rewrite !app_length.
  rewrite flat_loop. rewrite (total_ext _ (fun _ => 6)) by reflexivity. rewrite total_const.
  match goal with |- context [length (if 1 <? order then ?x else [])] =>
    assert (length (if 1 <? order then x else []) = total S (order - 1) * 8) as -> end.
  { destruct (Nat.ltb_spec 1 order); [rewrite (face_count _ _ _ _ 8) by (lia || reflexivity); f_equal; f_equal; lia|].
    destruct order as [|[|]]; [reflexivity|reflexivity|lia]. }
  match goal with |- context [length (if 2 <? order then ?x else [])] =>
    assert (length (if 2 <? order then x else []) = total (fun i => total S (S i)) (order - 2) * 3) as -> end.
  { destruct (Nat.ltb_spec 2 order); [rewrite (interior_count _ _ _ _ 3) by (lia || reflexivity); f_equal; f_equal; lia|].
    destruct order as [|[|[|]]]; [reflexivity|reflexivity|reflexivity|lia]. }
  pose proof (total_id (order - 1)) as A. pose proof (total_total (order - 2)) as B.
  destruct order as [|[|n]]; [reflexivity|reflexivity|].
  replace (S (S (S n)) - 1) with (S (S n)) by lia. replace (S (S n) - 1) with (S n) in * by lia. replace (S (S n) - 2) with n in * by lia. nia.
Qed.
Lemma ainsworth_size : forall order, 1 <= order -> 2 * length (createDGBasisFunctionSet3DAinsworthCoyle order) = (order + 1) * (order + 2) * (order + 3).
Proof.
  intros order Hpos. unfold createDGBasisFunctionSet3DAinsworthCoyle. rewrite !app_length.
  rewrite flat_loop. rewrite (total_ext _ (fun _ => 6)) by reflexivity. rewrite total_const.
  assert (forall l : list nat, length (flat_map (fun p => [EdgeFaceAinsworthCoyle p 3 0; EdgeFaceAinsworthCoyle p 3 1; EdgeFaceAinsworthCoyle p 3 2;
    EdgeFaceAinsworthCoyle p 2 0; EdgeFaceAinsworthCoyle p 2 1; EdgeFaceAinsworthCoyle p 2 3;
    EdgeFaceAinsworthCoyle p 1 0; EdgeFaceAinsworthCoyle p 1 2; EdgeFaceAinsworthCoyle p 1 3;
    EdgeFaceAinsworthCoyle p 0 1; EdgeFaceAinsworthCoyle p 0 2; EdgeFaceAinsworthCoyle p 0 3]) l) = length l * 12) as ->.
  { induction l as [|p l IH]; [reflexivity|]. cbn [flat_map]. rewrite app_length, IH. reflexivity. }
  rewrite map_length, loop_length.
  rewrite (face_count _ _ 3 _ 12) by (lia || reflexivity). rewrite (interior_count _ _ 4 _ 3) by (lia || reflexivity).
  pose proof (total_id (S order - 3)) as A. pose proof (total_total (S order - 4)) as B.
  destruct order as [|[|[|n]]]; [lia|reflexivity|reflexivity|].
  replace (S (S (S (S n))) - 3) with (S n) in * by lia. replace (S (S (S (S n))) - 4) with n in * by lia.
  replace (S (S (S (S n))) - 0) with (n + 4) by lia. replace (S (S (S (S n))) - 2) with (n + 2) by lia. nia.
Qed.
Lemma flat_three : forall (l : list basis_function) (f : basis_function -> list curl_function) c, (forall i, length (f i) = c) ->
  length (flat_map f l) = length l * c.
Proof. intros l f c H. induction l as [|p l IH]; [reflexivity|]. cbn [flat_map]. rewrite app_length, IH, H. reflexivity. Qed.
Lemma nedelec_2D_size : forall asserts order l, createDGBasisFunctionSet2DNedelec asserts order = Some l -> length l = order * (order + 2).
Proof.
  intros asserts order l H. unfold createDGBasisFunctionSet2DNedelec in H. destruct (Nat.eqb_spec order 0); [discriminate|].
  unbind H. assert (length l0 = order) as L0.
  { rewrite (dg_size asserts Line (order - 1) l0 E I). cbn. lia. }
  assert (length (flat_map (fun i => [EdgeNedelec2D 0 i; EdgeNedelec2D 1 i; EdgeNedelec2D 2 i]) l0) = 3 * order) as L1.
  { rewrite (flat_three _ _ 3) by reflexivity. lia. }
  destruct (Nat.ltb_spec 1 order).
  - unbind H. assert (2 * length l1 = (order - 1) * order) as L2.
    { rewrite (dg_size asserts Triangle (order - 2) l1 E0 I). cbn [space_dimension simplex_dimension].
      destruct order as [|[|n']]; try lia. replace (S (S n') - 2) with n' by lia.
      pose proof (total_id (S n')) as T. replace ((n' + 1) * (n' + 2)) with (2 * total S (S n')) by lia.
      rewrite (Nat.mul_comm 2 (total S (S n'))), Nat.div_mul by lia. lia. }
    assert (l = flat_map (fun i => [EdgeNedelec2D 0 i; EdgeNedelec2D 1 i; EdgeNedelec2D 2 i]) l0
      ++ flat_map (fun i => [InteriorNedelec2D 0 i; InteriorNedelec2D 1 i]) l1) as -> by (apply Some_inj in H; congruence).
    rewrite app_length, L1, (flat_three _ _ 2) by reflexivity. nia.
  - apply Some_inj in H. subst l. rewrite L1. replace order with 1 by lia. reflexivity.
Qed.
Lemma nedelec_2D_exists : forall asserts order, 1 <= order -> exists l, createDGBasisFunctionSet2DNedelec asserts order = Some l.
Proof.
  intros asserts order H. unfold createDGBasisFunctionSet2DNedelec. destruct (Nat.eqb_spec order 0); [lia|].
  destruct (dg_defined asserts Line (order - 1) I) as (l0 & E0). cbn [default_DG_set] in E0. rewrite E0. cbn [bind].
  destruct (1 <? order); [|eauto].
  destruct (dg_defined asserts Triangle (order - 2) I) as (l1 & E1). cbn [default_DG_set] in E1. rewrite E1. cbn [bind]. eauto.
Qed.

(** ** Where the functions exist *)
Lemma curl_defined_3D : forall f x y z, proper3 f -> exists v c, curl_eval f [x; y; z] = Some v /\ evalCurl f [x; y; z] = Some c.
Proof.
  intros f x y z H. rewrite (eval_field f x y z H). eexists.
  enough (exists c, evalCurl f [x; y; z] = Some c) as (c & Hc) by eauto.
  destruct f; cbn [proper3 proper_function] in H; try contradiction; cbn [evalCurl].
  - destruct H as (Hi & Hj & _). unfold EdgeNedelec_curl. rewrite !bary_lam, !gradient_dlam by assumption. eexists; reflexivity.
  - unfold Face1Nedelec_curl. pose proof (face_vertices_lt d) as L. destruct (face_vertices d) as [[a b] e]. destruct L as (La & Lb & Le & _).
    rewrite !bary_lam, !gradient_dlam by assumption. eexists; reflexivity.
  - unfold Face2Nedelec_curl. pose proof (face_vertices_lt d) as L. destruct (face_vertices d) as [[a b] e]. destruct L as (La & Lb & Le & _).
    rewrite !bary_lam, !gradient_dlam by assumption. eexists; reflexivity.
  - eexists; reflexivity.
  - eexists; reflexivity.
  - eexists; reflexivity.
  - destruct H as (Ho & Hi & _). unfold EdgeAinsworthCoyle_curl. rewrite !bary_lam, !gradient_dlam by assumption.
    destruct deg as [|[|n]]; eexists; reflexivity.
  - destruct H as (Hd & Ho & Hc & N). unfold EdgeFaceAinsworthCoyle_curl. pose proof (edge_vertices_ok _ _ Ho Hc N) as L.
    destruct (edge_vertices opposing c) as [a b]. destruct L as (La & Lb & _).
    destruct (Nat.ltb_spec deg 2); [lia|]. rewrite !bary_lam, !gradient_dlam by assumption. eexists; reflexivity.
  - unfold FaceAinsworthCoyle_curl. pose proof (directed_vertices_lt opposing direction) as L.
    destruct (directed_vertices opposing direction) as [[a b] e]. destruct L as (La & Lb & Le & _). unfold bubble_curl.
    rewrite !bary_lam, !gradient_dlam by assumption. eexists; reflexivity.
  - unfold FaceInteriorAinsworthCoyle_curl. pose proof (face_vertices_lt d) as L. destruct (face_vertices d) as [[a b] e].
    destruct L as (La & Lb & Le & _). unfold bubble_curl. rewrite !bary_lam, !gradient_dlam by assumption. eexists; reflexivity.
  - destruct H as [->|[->| ->]]; eexists; reflexivity.
Qed.

Lemma all_from : forall l r f, all l = Some r -> In f r -> In (Some f) l.
Proof.
  induction l as [|o l IH]; intros r f H Hf; cbn in H; [injection H as <-; destruct Hf|].
  destruct o as [g|]; [|discriminate]. cbn in H. destruct (all l) as [r'|] eqn:E; [|discriminate]. cbn in H. injection H as <-.
  destruct Hf as [->|Hf]; [left; reflexivity|right; eapply IH; eauto].
Qed.
Lemma new_inv : forall asserts c f g, new asserts c f = Some g -> g = f.
Proof. intros asserts c f g H. unfold new in H. destruct (asserts && negb c); congruence. Qed.
Lemma line_functions : forall asserts order l f, createDGBasisFunctionSet1DH1Line asserts order = Some l -> In f l ->
  f = PiecewiseConstant 1 \/ (exists e, f = VertexLine e) \/ (exists o, o + 2 <= order /\ f = InteriorLine o).
Proof.
  intros asserts order l f H Hf. unfold createDGBasisFunctionSet1DH1Line in H. destruct (0 <? order) eqn:E.
  - apply (all_from _ _ f H) in Hf. apply in_app_or in Hf. destruct Hf as [[Hf|[Hf|[]]]|Hf].
    + apply new_inv in Hf. subst f. right; left; eexists; reflexivity.
    + apply new_inv in Hf. subst f. right; left; eexists; reflexivity.
    + apply in_map_iff in Hf. destruct Hf as (o & Hf & Ho). apply in_loop in Ho. right; right; exists o. split; [lia|].
      unfold newInteriorLine in Hf. congruence.
  - injection H as <-. destruct Hf as [<-|[]]. now left.
Qed.
Lemma triangle_functions : forall asserts order l f, createDGBasisFunctionSet2DH1Triangle asserts order = Some l -> In f l ->
  f = PiecewiseConstant 2 \/ (exists n, n < 3 /\ f = VertexTriangle n) \/
  (exists i j o, i < 3 /\ j < 3 /\ o + 2 <= order /\ f = FaceTriangle i j o) \/
  (exists o0 o1, o0 + o1 + 3 <= order /\ f = InteriorTriangle o0 o1).
Proof.
  intros asserts order l f H Hf. unfold createDGBasisFunctionSet2DH1Triangle in H. destruct (0 <? order) eqn:E.
  - apply (all_from _ _ f H) in Hf. apply in_app_or in Hf. destruct Hf as [Hf|Hf].
    + apply in_map_iff in Hf. destruct Hf as (n & Hf & Hn). apply in_seq in Hn. apply new_inv in Hf. right; left; exists n; split; [lia|exact Hf].
    + apply in_flat_map in Hf. destruct Hf as (k & Hk & Hf). apply in_loop in Hk. apply in_app_or in Hf. destruct Hf as [Hf|Hf].
      * apply in_flat_map in Hf. destruct Hf as (i & Hi & Hf). apply in_seq in Hi. apply in_map_iff in Hf. destruct Hf as (j & Hf & Hj).
        apply in_seq in Hj. apply new_inv in Hf. right; right; left. exists i, j, k. split; [lia|]. split; [lia|]. split; [lia|exact Hf].
      * destruct (k + 3 <=? order) eqn:Ek; [|destruct Hf]. apply Nat.leb_le in Ek. apply in_map_iff in Hf. destruct Hf as (j & Hf & Hj).
        apply in_seq in Hj. right; right; right. exists (k - j), j. split; [lia|]. unfold newInteriorTriangle in Hf. congruence.
  - injection H as <-. destruct Hf as [<-|[]]. now left.
Qed.
Lemma line_function_value : forall asserts order l f x, createDGBasisFunctionSet1DH1Line asserts order = Some l -> In f l -> exists v, eval f [x] = Some v.
Proof.
  intros asserts order l f x H Hf. destruct (line_functions _ _ _ _ H Hf) as [->|[(e & ->)|(o & _ & ->)]]; eexists; reflexivity.
Qed.
Lemma triangle_function_value : forall asserts order l f x y, createDGBasisFunctionSet2DH1Triangle asserts order = Some l -> In f l ->
  exists v, eval f [x; y] = Some v.
Proof.
  intros asserts order l f x y H Hf.
  destruct (triangle_functions _ _ _ _ H Hf) as [->|[(n & Hn & ->)|[(i & j & o & Hi & Hj & _ & ->)|(o0 & o1 & _ & ->)]]].
  - eexists; reflexivity.
  - destruct n as [|[|[|n]]]; try lia; eexists; reflexivity.
  - destruct i as [|[|[|i]]]; try lia; (destruct j as [|[|[|j]]]; try lia); eexists; reflexivity.
  - eexists; reflexivity.
Qed.
Lemma in_nedelec_2D : forall asserts order l f, createDGBasisFunctionSet2DNedelec asserts order = Some l -> In f l ->
  1 <= order /\
  ((exists s m ml, s < 3 /\ f = EdgeNedelec2D s m /\ createDGBasisFunctionSet1DH1Line asserts (order - 1) = Some ml /\ In m ml) \/
   (exists t m ml, t < 2 /\ 2 <= order /\ f = InteriorNedelec2D t m /\ createDGBasisFunctionSet2DH1Triangle asserts (order - 2) = Some ml /\ In m ml)).
Proof.
  intros asserts order l f H Hf. unfold createDGBasisFunctionSet2DNedelec in H. destruct (Nat.eqb_spec order 0) as [|N]; [discriminate|].
  split; [lia|]. unbind H. rename E into El.
  assert (In f (flat_map (fun i => [EdgeNedelec2D 0 i; EdgeNedelec2D 1 i; EdgeNedelec2D 2 i]) l0) ->
    exists s m ml, s < 3 /\ f = EdgeNedelec2D s m /\ createDGBasisFunctionSet1DH1Line asserts (order - 1) = Some ml /\ In m ml) as G.
  { intros G. apply in_flat_map in G. destruct G as (m & Hm & [G|[G|[G|[]]]]); [exists 0|exists 1|exists 2]; exists m, l0; auto. }
  destruct (Nat.ltb_spec 1 order).
  - unbind H. apply Some_inj in H. subst l. apply in_app_or in Hf. destruct Hf as [Hf|Hf]; [left; exact (G Hf)|right].
    apply in_flat_map in Hf. destruct Hf as (m & Hm & [Hf|[Hf|[]]]); [exists 0|exists 1]; exists m, l1; auto.
  - apply Some_inj in H. subst l. left. exact (G Hf).
Qed.
Lemma nedelec_2D_plane : forall asserts order l f, createDGBasisFunctionSet2DNedelec asserts order = Some l -> In f l -> plane_function f.
Proof.
  intros asserts order l f H Hf. destruct (in_nedelec_2D _ _ _ _ H Hf) as [_ [(s & m & ml & _ & -> & _)|(t & m & ml & _ & _ & -> & _)]]; exact I.
Qed.
Lemma nedelec_2D_value : forall asserts order l f x y, createDGBasisFunctionSet2DNedelec asserts order = Some l -> In f l ->
  exists v, curl_eval f [x; y] = Some v.
Proof.
  intros asserts order l f x y H Hf.
  destruct (in_nedelec_2D _ _ _ _ H Hf) as [_ [(s & m & ml & _ & -> & E & Hm)|(t & m & ml & _ & _ & -> & E & Hm)]]; cbn [curl_eval].
  - unfold EdgeNedelec2D_eval. destruct (line_function_value _ _ _ _ (modulatorCoord s x y) E Hm) as (v & ->). eexists; reflexivity.
  - unfold InteriorNedelec2D_eval. destruct (triangle_function_value _ _ _ _ x y E Hm) as (v & ->). eexists; reflexivity.
Qed.
Lemma nedelec_2D_curl_defined : forall asserts order l f x y, order <= 6 -> createDGBasisFunctionSet2DNedelec asserts order = Some l -> In f l ->
  exists c, evalCurl f [x; y] = Some c.
Proof.
  intros asserts order l f x y Ho H Hf.
  destruct (in_nedelec_2D _ _ _ _ H Hf) as [_ [(s & m & ml & _ & -> & E & Hm)|(t & m & ml & _ & H2 & -> & E & Hm)]]; cbn [evalCurl].
  - unfold EdgeNedelec2D_curl. destruct (line_function_value _ _ _ _ (modulatorCoord s x y) E Hm) as (v & Hv). rewrite Hv. cbn [bind].
    destruct (derivative_defined m [modulatorCoord s x y] v 0 Hv) as (d & Hd).
    + intros o Hin. destruct (line_functions _ _ _ _ E Hm) as [->|[(e & ->)|(o' & Lo & ->)]]; cbn in Hin; try contradiction.
      destruct Hin as [<-|[]]. lia.
    + destruct (line_functions _ _ _ _ E Hm) as [->|[(e & ->)|(o' & Lo & ->)]]; cbn; lia.
    + destruct (line_functions _ _ _ _ E Hm) as [->|[(e & ->)|(o' & Lo & ->)]]; exact I.
    + rewrite Hd. eexists; reflexivity.
  - unfold InteriorNedelec2D_curl. destruct (match t with 0 => _ | S _ => _ end) as [a b].
    destruct (triangle_function_value _ _ _ _ x y E Hm) as (v & Hv). rewrite Hv. cbn [bind].
    assert (forall i, i < 2 -> exists d, evalDeriv i m [x; y] = Some d) as HD.
    { intros i Hi. destruct (triangle_functions _ _ _ _ E Hm) as [->|[(n & Hn & ->)|[(i' & j & o & Hi' & Hj & Lo & ->)|(o0 & o1 & Lo & ->)]]];
        apply (derivative_defined _ _ v i Hv); try exact I; try exact Hi; cbn; intros o' Ho'; lia. }
    destruct (HD 0) as (d0 & ->); [lia|]. destruct (HD 1) as (d1 & ->); [lia|]. eexists; reflexivity.
Qed.
Lemma nedelec_2D_curl_missing : forall asserts order l, 7 <= order -> createDGBasisFunctionSet2DNedelec asserts order = Some l ->
  exists f, In f l /\ forall p, evalCurl f p = None.
Proof.
  intros asserts order l Ho H. unfold createDGBasisFunctionSet2DNedelec in H. destruct (Nat.eqb_spec order 0) as [|N]; [lia|]. unbind H.
  assert (In (InteriorLine 4) l0) as Hin.
  { unfold createDGBasisFunctionSet1DH1Line in E. destruct (Nat.ltb_spec 0 (order - 1)); [|lia]. apply (all_in _ _ _ E).
    apply in_or_app; right. apply in_map_iff. exists 4. split; [reflexivity|]. apply in_loop. lia. }
  exists (EdgeNedelec2D 0 (InteriorLine 4)). split.
  - destruct (Nat.ltb_spec 1 order); [|lia]. unbind H. apply Some_inj in H. subst l. apply in_or_app; left.
    apply in_flat_map. exists (InteriorLine 4). split; [exact Hin|left; reflexivity].
  - intros p. destruct p as [|x [|y [|? ?]]]; reflexivity.
Qed.
