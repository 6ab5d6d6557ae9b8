From Coq Require Import List Arith Bool Lia Relations Sorted.
From Verif Require Import Loop_model Loop_proofs StdMap_model StdMap_proofs UnionFind_model UnionFind_spec UnionFind_proofs
  PreMesh_model PreShapes_model PreMesh_spec PreMesh_proofs PreMeshShare_proofs PreMeshMore_proofs MergePlan_model MergePlan_spec MergePlan_proofs.
Import ListNotations.

Lemma coord_node m el k c : consistent m -> coord_of m el k = Some c -> exists n, part_of m 0 el k = Some n /\ nth_error (coordinates m) c = Some (Some n).
Proof. intros C H. pose proof (c_coords m C el k) as CC. rewrite H in CC. destruct (part_of m 0 el k) as [n|]; [eauto|destruct CC]. Qed.
Lemma coordinates_nodes m d el l cs : consistent m -> coordinates_of m d el l cs -> exists ns, nodes_of m d el l ns /\ Forall2 (fun c n => nth_error (coordinates m) c = Some (Some n)) cs ns.
Proof.
  intros C (s & nodes & A & B & F). enough (Q : exists ns, Forall2 (fun k n => part_of m 0 el k = Some n) nodes ns /\ Forall2 (fun c n => nth_error (coordinates m) c = Some (Some n)) cs ns).
  { destruct Q as (ns & Q1 & Q2). exists ns. split; [exists s, nodes; auto|exact Q2]. }
  clear A B. induction F as [|k c nodes cs E F (ns & IH1 & IH2)]; [exists []; split; constructor|]. destruct (coord_node m el k c C E) as (n & E1 & E2). exists (n :: ns). split; constructor; assumption.
Qed.
Lemma node_coord m el k n : consistent m -> part_of m 0 el k = Some n -> coord_of m el k <> None.
Proof. intros C H. pose proof (c_coords m C el k) as CC. rewrite H in CC. destruct (coord_of m el k); [discriminate|destruct CC]. Qed.

Lemma built_ready dim m : 1 <= dim -> built dim m -> ready m.
Proof.
  intros Hdim B. pose proof (built_complete dim m Hdim B) as G. pose proof (g_consistent _ _ _ _ G) as C. unfold ready. splits.
  - exact C.
  - intros el s Es d Hd. rewrite (g_dim _ _ _ _ G) in Hd. destruct (built_whole dim m el s d Hdim B Es Hd) as (ps & A1 & A2 & A3 & A4). exists ps. splits; auto.
    intros l nodes Hl. destruct (A4 l nodes Hl) as (B1 & B2 & ns & (s' & locals & E1 & E2 & E3) & _). splits; auto. intros n Hn. assert (s' = s) by congruence. subst.
    unfold part in E2. rewrite A1 in E2. assert (locals = nodes) by congruence. subst. destruct (forall2_in_l _ _ _ _ E3 Hn) as (x & _ & Ex). eapply node_coord; eassumption.
  - intros el l l' c H H'. destruct (coord_node m el l c C H) as (n & A1 & A2). destruct (coord_node m el l' c C H') as (n' & B1 & B2). assert (n' = n) by congruence. subst.
    eapply (g_distinct _ _ _ _ G); eassumption.
  - intros d el l x el' l' x' cs cs' Hd Hx Hx' Hc Hc' S. destruct (coordinates_nodes _ _ _ _ _ C Hc) as (ns & A1 & A2). destruct (coordinates_nodes _ _ _ _ _ C Hc') as (ns' & B1 & B2).
    apply (built_sharing dim m d el l x el' l' x' ns ns' Hdim B Hd Hx Hx' A1 B1).
    assert (Q : forall cs cs' ns ns', Forall2 (fun c n => nth_error (coordinates m) c = Some (Some n)) cs ns -> Forall2 (fun c n => nth_error (coordinates m) c = Some (Some n)) cs' ns' -> (forall c, In c cs -> In c cs') -> forall n, In n ns -> In n ns').
    { clear. intros cs cs' ns ns' F F' I n Hn. destruct (forall2_in_r _ _ _ _ F Hn) as (c & Hc & E). destruct (forall2_in_l _ _ _ _ F' (I c Hc)) as (n' & Hn' & E'). assert (n' = n) by congruence. subst. exact Hn'. }
    intros n. split; [eapply (Q cs cs'); try eassumption; intros; apply S; assumption|eapply (Q cs' cs); try eassumption; intros; apply S; assumption].
Qed.

Lemma coordinates_of_same m m' d el l cs : same_elements m m' -> coordinates_of m' d el l cs -> coordinates_of m d el l cs.
Proof. intros [HC HS] (s & n & A & B & F). exists s, n. rewrite <- HS. splits; auto. eapply forall2_impl; [|exact F]. intros k c. cbn beta. rewrite HC. auto. Qed.

Lemma executed_ready merges m m' : ready m -> length merges = length (meshEntities m) -> executed merges m m' -> ready m'.
Proof.
  intros (C & W & PE & SH) HL [E1 E2 E3 E4 E5].
  assert (PN : forall d el l, part_of m' d el l <> None -> part_of m d el l <> None).
  { intros d el l H. destruct (Nat.lt_ge_cases d (length merges)) as [Hd|Hd].
    - destruct (nth_error merges d) as [gs|] eqn:Eg; [|apply nth_error_None in Eg; lia]. rewrite (E2 d el l gs Eg) in H. destruct (part_of m d el l); [discriminate|exact H].
    - destruct (part_of m' d el l) as [x|] eqn:Ex; [|congruence]. destruct (c_exists m' E1 d el l x Ex) as (en & F). unfold links_of in F.
      rewrite (proj2 (nth_error_None _ _)) in F by lia. discriminate. }
  assert (GS : forall d, d < length (meshEntities m) -> exists gs, nth_error merges d = Some gs).
  { intros d Hd. destruct (nth_error merges d) as [gs|] eqn:Eg; [eauto|apply nth_error_None in Eg; lia]. }
  unfold ready. splits.
  - exact E1.
  - intros el s Es d Hd. rewrite E5 in Hd. rewrite E4 in Es. destruct (W el s Es d Hd) as (ps & A1 & A2 & A3 & A4). exists ps. splits; auto.
    + intros l. rewrite <- A3. destruct (GS d) as (gs & Eg); [lia|]. rewrite (E2 d el l gs Eg). destruct (part_of m d el l); cbn; split; intros ?; congruence.
    + intros l nodes Hl. destruct (A4 l nodes Hl) as (B1 & B2 & B3). splits; auto. intros n Hn. rewrite E3. apply B3, Hn.
  - intros el l l' c. rewrite !E3. apply PE.
  - intros d el l x el' l' x' cs cs' Hd Hx Hx' Hc Hc' S.
    assert (SE : same_elements m m') by (split; auto). apply (coordinates_of_same m m') in Hc, Hc'; auto.
    destruct (part_of m d el l) as [y|] eqn:Ey; [|exfalso; apply (PN d el l); congruence]. destruct (part_of m d el' l') as [y'|] eqn:Ey'; [|exfalso; apply (PN d el' l'); congruence].
    destruct (GS d) as (gs & Eg).
    { destruct (c_exists m C d el l y Ey) as (en & F). unfold links_of in F. apply nth_error_Some. destruct (nth_error (meshEntities m) d); congruence. }
    rewrite (E2 d el l gs Eg), Ey in Hx. rewrite (E2 d el' l' gs Eg), Ey' in Hx'. cbn in Hx, Hx'. assert (y = y') by (eapply SH; eassumption). congruence.
Qed.

Lemma identified_exist m pairing d x y : consistent m -> valid_pairing m pairing -> identified m pairing d x y -> (exists en, links_of m d x = Some en) /\ exists en, links_of m d y = Some en.
Proof.
  intros C [_ V] H. destruct d; cbn in H.
  - destruct H as (c & c' & Hp & E1 & E2). destruct (V c c' Hp) as [(n & en & A1 & A2) (n' & en' & B1 & B2)]. assert (n = x) by congruence. assert (n' = y) by congruence. subst. eauto.
  - destruct H as (el & l & el' & l' & cs & cs' & A1 & A2 & _). split; eapply c_exists; eassumption.
Qed.
Lemma connects_exist m pairing d x y : consistent m -> valid_pairing m pairing -> connects m pairing d x y -> x = y \/ ((exists en, links_of m d x = Some en) /\ exists en, links_of m d y = Some en).
Proof.
  intros C V H. induction H as [x y H|x|x y H IH|x y z H1 IH1 H2 IH2].
  - right. eapply identified_exist; eassumption.
  - auto.
  - destruct IH as [->|[? ?]]; auto.
  - destruct IH1 as [->|[? ?]]; [exact IH2|]. destruct IH2 as [->|[? ?]]; auto.
Qed.

Lemma groups_executable m pairing merges : consistent m -> valid_pairing m pairing -> length merges = length (meshEntities m) ->
  (forall d gs, nth_error merges d = Some gs -> groups_for (connects m pairing d) gs) -> executable m merges.
Proof.
  intros C V HL H. split; [exact HL|]. intros d gs Eg. destruct (H d gs Eg) as (G1 & G2 & G3). split; [exact G1|]. intros x Hx. apply in_concat in Hx as (g & Hg & Hx).
  destruct (G2 g Hg) as [L S]. assert (exists y, In y g /\ x <> y) as (y & Hy & N).
  { destruct g as [|a [|b r]]; cbn in L; try lia. assert (a < b) by (inversion S; subst; rewrite Forall_forall in H3; apply H3; left; reflexivity).
    destruct (Nat.eq_dec x a) as [->|]; [exists b; split; [right; left; reflexivity|lia]|exists a; split; [left; reflexivity|assumption]]. }
  assert (Q : connects m pairing d x y) by (apply G3; [exact N|exists g; auto]). destruct (connects_exist _ _ _ _ _ C V Q) as [?|[? _]]; [congruence|assumption].
Qed.

Lemma collapse_group gs x : NoDup (List.concat gs) -> collapse gs x = x \/ exists g, In g gs /\ In x g /\ In (collapse gs x) g.
Proof.
  intros ND. unfold collapse. destruct (find (mem x) gs) as [[|t g]|] eqn:E; auto. apply find_mem_some in E as [A B]. right. exists (t :: g). splits; auto. left. reflexivity.
Qed.

(** the whole of it *)
Lemma merged_ok m pairing : ready m -> valid_pairing m pairing -> injective pairing -> exists k, forall fuel, k < fuel -> exists merges m',
  computeMergePlan fuel m pairing = Some merges /\ executeMerge merges m = Some m' /\ ready m' /\ same_elements m m' /\
  (forall d el l x, part_of m d el l = Some x -> exists y, part_of m' d el l = Some y /\ connects m pairing d x y) /\
  (forall d el l x el' l' x', part_of m d el l = Some x -> part_of m d el' l' = Some x' -> (part_of m' d el l = part_of m' d el' l' <-> connects m pairing d x x')).
Proof.
  intros R V I. pose proof R as (C & W & PE & SH). destruct (plan_ok m pairing C W PE SH V I) as (k & K). exists k. intros fuel Hf. destruct (K fuel Hf) as (merges & A1 & A2 & A3). clear K.
  pose proof (groups_executable m pairing merges C V A2 A3) as EX. destruct (execute_ok m merges C EX) as (m' & B1 & B2). exists merges, m'.
  assert (GS : forall d el l x, part_of m d el l = Some x -> exists gs, nth_error merges d = Some gs).
  { intros d el l x Hx. destruct (c_exists m C d el l x Hx) as (en & F). unfold links_of in F. destruct (nth_error merges d) as [gs|] eqn:Eg; [eauto|]. apply nth_error_None in Eg. rewrite A2 in Eg.
    apply nth_error_None in Eg. rewrite Eg in F. discriminate. }
  splits; auto; [eapply executed_ready; eassumption|destruct B2; split; auto| |].
  - intros d el l x Hx. destruct (GS _ _ _ _ Hx) as (gs & Eg). exists (collapse gs x). split; [rewrite (ex_part _ _ _ B2 d el l gs Eg), Hx; reflexivity|].
    destruct (A3 d gs Eg) as (G1 & G2 & G3). destruct (Nat.eq_dec x (collapse gs x)) as [<-|N]; [apply rst_refl|]. apply G3; [exact N|].
    destruct (collapse_group gs x G1) as [E|E]; [congruence|exact E].
  - intros d el l x el' l' x' Hx Hx'. destruct (GS _ _ _ _ Hx) as (gs & Eg). rewrite (ex_part _ _ _ B2 d el l gs Eg), (ex_part _ _ _ B2 d el' l' gs Eg), Hx, Hx'. cbn [option_map].
    destruct (A3 d gs Eg) as (G1 & G2 & G3). pose proof (collapse_same gs x x' G1) as CS. split.
    + intros E. injection E as E. apply CS in E as [->|E]; [apply rst_refl|]. destruct (Nat.eq_dec x x') as [->|N]; [apply rst_refl|]. apply G3; [exact N|exact E].
    + intros Q. f_equal. apply CS. destruct (Nat.eq_dec x x') as [->|N]; [auto|]. right. apply G3; [exact N|exact Q].
Qed.

(** Every pairing: what is grouped is connected. *)
Lemma plan_sound m pairing : consistent m -> whole m -> valid_pairing m pairing ->
  exists k, forall fuel merges, k < fuel -> computeMergePlan fuel m pairing = Some merges -> length merges = length (meshEntities m) /\
    forall d gs, nth_error merges d = Some gs -> NoDup (List.concat gs) /\ forall g a b, In g gs -> In a g -> In b g -> connects m pairing d a b.
Proof.
  intros C W V. destruct pairing as [|p0 rest] eqn:Epair.
  - exists 0. intros fuel merges _ H. injection H as <-. split; [apply repeat_length|]. intros d gs Hd. apply nth_error_In, repeat_spec in Hd. subst. split; [constructor|intros ? ? ? []].
  - rewrite <- Epair in *. pose proof V as V'. destruct V' as [_ V2].
    destruct (node_pairs_spec m pairing V) as (np & Enp & Hnp).
    destruct (adjacent_spec m pairing fst C) as (left & El & HL); [intros [c c'] Hp; apply (V2 c c' Hp)|].
    destruct (adjacent_spec m pairing snd C) as (right & Er & HR); [intros [c c'] Hp; apply (V2 c c' Hp)|].
    assert (Hdim : 1 <= length (meshEntities m)).
    { destruct (V2 (fst p0) (snd p0)) as [(n & en & _ & F) _]; [rewrite Epair; left; destruct p0; reflexivity|]. unfold links_of in F. destruct (meshEntities m); [discriminate|cbn; lia]. }
    assert (SUB : forall ps (R : nat -> nat -> Prop), (forall a b, In (a, b) ps -> R a b) -> forall a b, connected ps a b -> clos_refl_sym_trans nat R a b).
    { clear. intros ps R H a b Q. induction Q; [apply rst_step, H; assumption|apply rst_refl|apply rst_sym; assumption|eapply rst_trans; eassumption]. }
    assert (K : exists k, depth (length np) <= k /\ forall d ps, 1 <= d < length (meshEntities m) -> levelPairs m d pairing left right = Some ps -> depth (length ps) <= k).
    { set (kf := fun d => match levelPairs m d pairing left right with Some ps => depth (length ps) | None => 0 end).
      exists (depth (length np) + list_sum (map kf (seq 0 (length (meshEntities m))))). split; [lia|]. intros d ps Hd E.
      assert (Q : kf d <= list_sum (map kf (seq 0 (length (meshEntities m))))).
      { assert (Hin : In d (seq 0 (length (meshEntities m)))) by (apply in_seq; lia). clear -Hin. induction (seq 0 (length (meshEntities m))) as [|x r IH]; [destruct Hin|].
        change (list_sum (map kf (x :: r))) with (kf x + list_sum (map kf r)). destruct Hin as [->|Hin]; [lia|]. specialize (IH Hin). lia. }
      unfold kf at 1 in Q. rewrite E in Q. lia. }
    destruct K as (k & K0 & K1). exists k. intros fuel merges Hf H. unfold computeMergePlan in H. rewrite Epair, <- Epair in H. rewrite Enp in H.
    assert (GM : forall ps (R : nat -> nat -> Prop) gs, depth (length ps) < fuel -> (forall a b, In (a, b) ps -> R a b) -> groupMerges fuel ps = Some gs ->
       NoDup (List.concat gs) /\ forall g a b, In g gs -> In a g -> In b g -> clos_refl_sym_trans nat R a b).
    { intros ps R gs Hd HR' E. destruct (groupMerges_ok ps fuel Hd) as (gs' & E' & G1 & G2 & G3). assert (gs' = gs) by congruence. subst. split; [exact G1|]. intros g a b Hg Ha Hb.
      destruct (Nat.eq_dec a b) as [->|N]; [apply rst_refl|]. apply (SUB ps); [exact HR'|]. apply G3; [exact N|]. exists g. auto. }
    destruct (groupMerges fuel np) as [g0|] eqn:Eg0; [|discriminate]. rewrite El, Er in H.
    assert (L : forall n start acc merges, for_from start n (fun d merges => ps <- levelPairs m d pairing left right; g <- groupMerges fuel ps; Some (merges ++ [g])) acc = Some merges ->
       exists r, merges = acc ++ r /\ length r = n /\ forall i gs, nth_error r i = Some gs -> exists ps, levelPairs m (start + i) pairing left right = Some ps /\ groupMerges fuel ps = Some gs).
    { clear. induction n as [|n IH]; intros start acc merges H; cbn [for_from] in H.
      - injection H as <-. exists []. rewrite app_nil_r. splits; auto. intros [|i] gs E; discriminate.
      - destruct (levelPairs m start pairing left right) as [ps|] eqn:Ep; [|discriminate]. destruct (groupMerges fuel ps) as [g|] eqn:Eg; [|discriminate].
        destruct (IH _ _ _ H) as (r & -> & Lr & Hr). exists (g :: r). rewrite <- app_assoc. splits; [reflexivity|cbn; lia|]. intros [|i] gs E; cbn in E.
        + injection E as <-. exists ps. rewrite Nat.add_0_r. auto.
        + destruct (Hr i gs E) as (ps' & A & B). exists ps'. replace (start + S i) with (S start + i) by lia. auto. }
    destruct (L _ _ _ _ H) as (r & -> & Lr & Hr). split; [cbn; lia|]. intros [|d] gs E.
    + cbn in E. injection E as <-. apply (GM np); [lia| |exact Eg0]. intros a b. apply Hnp.
    + cbn [app nth_error] in E. assert (Hd : d < length r) by (apply nth_error_Some; congruence). destruct (Hr d gs E) as (ps & Ep & Egs). cbn [Nat.add] in Ep.
      apply (GM ps); [|intros a b; apply (level_spec m pairing W V (S d) ltac:(lia) left right ps HL HR Ep)|exact Egs]. specialize (K1 (S d) ps ltac:(lia) Ep). lia.
Qed.

(** ** Examples *)
Definition two_triangles : list op :=
  [AddNode; AddNode; AddNode; AddNode; AddCoordinate 0; AddCoordinate 1; AddCoordinate 2; AddCoordinate 3; AddElement [0; 1; 2]; AddElement [1; 2; 3]].
Definition three_triangles : list op :=
  repeat AddNode 9 ++ map AddCoordinate (seq 0 9) ++ [AddElement [0; 1; 2]; AddElement [3; 4; 5]; AddElement [6; 7; 8]].

Lemma ksortedb_sound (p : list (nat * nat)) : (fix go (l : list (nat * nat)) := match l with a :: ((b :: _) as r) => (fst a <? fst b) && go r | _ => true end) p = true -> StronglySorted (fun p q => fst p < fst q) p.
Proof.
  intros H. apply Sorted_StronglySorted; [intros a b c; lia|]. induction p as [|a p IH]; [constructor|]. destruct p as [|b r]; [repeat constructor|].
  apply andb_true_iff in H as [H1 H2]. constructor; [apply IH, H2|constructor; apply Nat.ltb_lt, H1].
Qed.
Definition validb (m : mesh) (pairing : list (nat * nat)) : bool :=
  forallb (fun p => forallb (fun c => match nodeIndex m c with Some n => match links_of m 0 n with Some _ => true | None => false end | None => false end) [fst p; snd p]) pairing.
Lemma validb_sound m pairing : StronglySorted (fun p q => fst p < fst q) pairing -> validb m pairing = true -> valid_pairing m pairing.
Proof.
  intros S H. split; [exact S|]. unfold validb in H. rewrite forallb_forall in H. intros c c' Hp. specialize (H _ Hp). cbn [forallb fst snd] in H. apply andb_true_iff in H as [H1 H2]. rewrite andb_true_r in H2.
  assert (Q : forall c, match nodeIndex m c with Some n => match links_of m 0 n with Some _ => true | None => false end | None => false end = true -> exists n en, nth_error (coordinates m) c = Some (Some n) /\ links_of m 0 n = Some en).
  { clear. intros c. unfold nodeIndex. destruct (nth_error (coordinates m) c) as [[n|]|]; try discriminate. destruct (links_of m 0 n) as [en|] eqn:E; [|discriminate]. intros _. eauto. }
  split; apply Q; assumption.
Qed.
Lemma connected_occurs ps a b : connected ps a b -> a = b \/ ((exists p, In p ps /\ (fst p = a \/ snd p = a)) /\ exists p, In p ps /\ (fst p = b \/ snd p = b)).
Proof.
  induction 1 as [a b H|a|a b H IH|a b c H1 IH1 H2 IH2].
  - right. split; exists (a, b); auto.
  - auto.
  - destruct IH as [->|[? ?]]; auto.
  - destruct IH1 as [->|[? ?]]; [exact IH2|]. destruct IH2 as [->|[? ?]]; auto.
Qed.

Definition three : mesh := match history three_triangles (empty 2) with Some m => m | None => empty 2 end.
Definition onto : list (nat * nat) := [(0, 6); (1, 7); (3, 6); (4, 7)].
Lemma three_built : history three_triangles (empty 2) = Some three /\ built 2 three.
Proof.
  assert (E : history three_triangles (empty 2) = Some three) by (vm_compute; reflexivity). split; [exact E|].
  eapply (buildable_built 2 three_triangles (empty 2)); [constructor|vm_compute; reflexivity|exact E].
Qed.
Lemma missed : exists m pairing, ready m /\ valid_pairing m pairing /\ exists k, forall fuel, k < fuel -> exists merges gs x y,
  computeMergePlan fuel m pairing = Some merges /\ identified m pairing 1 x y /\ nth_error merges 1 = Some gs /\ x <> y /\ ~ exists g, In g gs /\ In x g /\ In y g.
Proof.
  exists three, onto. destruct three_built as [_ B]. split; [exact (built_ready 2 three ltac:(lia) B)|]. split; [apply validb_sound; [apply ksortedb_sound; reflexivity|vm_compute; reflexivity]|].
  exists 10. intros fuel Hf.
  assert (N : nodePairs three onto = Some [(0, 6); (1, 7); (3, 6); (4, 7)]) by (vm_compute; reflexivity).
  assert (L : computeAdjacentElements three onto fst = Some [0; 1]) by (vm_compute; reflexivity).
  assert (R : computeAdjacentElements three onto snd = Some [2]) by (vm_compute; reflexivity).
  assert (P : levelPairs three 1 onto [0; 1] [2] = Some [(3, 6)]) by (vm_compute; reflexivity).
  destruct (groupMerges_ok [(0, 6); (1, 7); (3, 6); (4, 7)] fuel) as (g0 & E0 & _); [unfold depth; vm_compute (Nat.log2 _); lia|].
  destruct (groupMerges_ok [(3, 6)] fuel) as (g1 & E1 & _ & _ & H1); [unfold depth; vm_compute (Nat.log2 _); lia|].
  exists [g0; g1], g1, 0, 6. splits; auto.
  - unfold computeMergePlan. unfold onto at 1. cbn iota. change [(0, 6); (1, 7); (3, 6); (4, 7)] with onto. rewrite N. change onto with [(0, 6); (1, 7); (3, 6); (4, 7)] in E0.
    rewrite E0, L, R. change (length (meshEntities three) - 1) with 1. cbn [for_from]. rewrite P, E1. reflexivity.
  - exists 0, 0, 2, 0, [0; 1], [6; 7]. splits; try reflexivity.
    + exists triangle, [0; 1]. splits; try reflexivity. repeat constructor.
    + exists triangle, [0; 1]. splits; try reflexivity. repeat constructor.
    + split.
      * intros c [<-|[<-|[]]]; [exists 6|exists 7]; cbn; auto.
      * intros c'. cbn. split.
        -- intros [<-|[<-|[]]]; [exists 0|exists 1]; auto.
        -- intros (c & [<-|[<-|[]]] & [E|[E|[E|[E|[]]]]]); injection E; intros; subst; auto; discriminate.
  - intros F. apply H1 in F; [|discriminate]. apply connected_occurs in F as [F|[(p & [<-|[]] & [F|F]) _]]; discriminate.
Qed.
