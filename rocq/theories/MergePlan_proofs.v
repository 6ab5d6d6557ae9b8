From Coq Require Import List Arith Bool Lia Relations Sorted.
From Verif Require Import Loop_model Loop_proofs StdMap_model StdMap_proofs UnionFind_model UnionFind_spec UnionFind_proofs
  PreMesh_model PreShapes_model PreMesh_spec PreMesh_proofs MergePlan_model MergePlan_spec.
Import ListNotations.

(** ** Executing a plan *)
Record reduced (d : nat) (f : nat -> nat) (m m' : mesh) : Prop := {
  rd_consistent : consistent m';
  rd_part : forall d' el l, part_of m' d' el l = option_map (if d' =? d then f else fun x => x) (part_of m d' el l);
  rd_coord : forall el l, coord_of m' el l = coord_of m el l;
  rd_shape : forall el, shape_of m' el = shape_of m el;
  rd_dim : length (meshEntities m') = length (meshEntities m);
  rd_elements : length (elementsList m') = length (elementsList m);
  rd_exist : forall d' y, links_of m' d' y = None <-> links_of m d' y = None }.

Lemma reduced_refl d m : consistent m -> reduced d (fun x => x) m m.
Proof. intros C. constructor; auto; try tauto. intros. destruct (d' =? d), (part_of m d' el l); reflexivity. Qed.
Lemma reduced_trans d f g m m1 m2 : reduced d f m m1 -> reduced d g m1 m2 -> reduced d (fun x => g (f x)) m m2.
Proof.
  intros [A1 A2 A3 A4 A5 A6 A7] [B1 B2 B3 B4 B5 B6 B7]. constructor; auto; try congruence.
  - intros. rewrite B2, A2. destruct (d' =? d), (part_of m d' el l); reflexivity.
  - intros. rewrite B7. apply A7.
Qed.
Lemma reduced_ext d f g m m' : (forall x, f x = g x) -> reduced d f m m' -> reduced d g m m'.
Proof.
  intros E [A1 A2 A3 A4 A5 A6 A7]. constructor; auto. intros. rewrite A2. destruct (d' =? d), (part_of m d' el l); cbn; try reflexivity. rewrite E. reflexivity.
Qed.
Lemma merge_reduced m d t s : consistent m -> links_of m d t <> None -> links_of m d s <> None -> s <> t ->
  exists m', merge m d t s = Some m' /\ reduced d (fun x => if x =? s then t else x) m m'.
Proof.
  intros C Ht Hs N. destruct (merge_ok m d t s C Ht Hs N) as (m' & E & M). exists m'. split; [exact E|].
  destruct M. constructor; auto. intros. rewrite mi_part. unfold renamed. destruct (d' =? d); reflexivity.
Qed.

Lemma group_reduced d t : forall others m, consistent m -> links_of m d t <> None -> ~ In t others ->
  (forall x, In x others -> links_of m d x <> None) ->
  exists m', for_each others (fun s m => merge m d t s) m = Some m' /\ reduced d (fun x => if mem x others then t else x) m m'.
Proof.
  induction others as [|s others IH]; intros m C Ht Nt Hs; cbn [for_each].
  - exists m. split; [reflexivity|]. apply reduced_refl, C.
  - destruct (merge_reduced m d t s C Ht) as (m1 & E1 & R1); [apply Hs; left; reflexivity|intros ->; apply Nt; left; reflexivity|]. rewrite E1.
    destruct (IH m1) as (m2 & E2 & R2).
    + exact (rd_consistent _ _ _ _ R1).
    + rewrite (rd_exist _ _ _ _ R1). exact Ht.
    + intros F. apply Nt. right. exact F.
    + intros x Hx. rewrite (rd_exist _ _ _ _ R1). apply Hs. right. exact Hx.
    + exists m2. split; [exact E2|]. eapply reduced_ext; [|eapply reduced_trans; eassumption].
      intros x. cbn [mem existsb]. fold (mem x others). destruct (Nat.eqb_spec x s) as [->|]; [|reflexivity]. cbn [orb].
      destruct (mem t others); reflexivity.
Qed.

(** the entity that stays of the group of [x] *)
Definition collapse (gs : list (list nat)) (x : nat) : nat :=
  match find (mem x) gs with Some (t :: _) => t | _ => x end.
Lemma mem_spec x l : mem x l = true <-> In x l.
Proof.
  unfold mem. rewrite existsb_exists. split.
  - intros (y & H & E). apply Nat.eqb_eq in E. congruence.
  - intros H. exists x. split; [exact H|]. apply Nat.eqb_refl.
Qed.
Lemma nodup_app_split {A} (a b : list A) : NoDup (a ++ b) -> NoDup a /\ NoDup b /\ forall x, In x a -> In x b -> False.
Proof.
  induction a as [|x a IH]; cbn; intros H; [repeat split; [constructor|exact H|intros ? []]|].
  inversion H; subst. destruct (IH H3) as (A1 & A2 & A3). repeat split; [constructor; [|exact A1]|exact A2|].
  - intros F. apply H2, in_or_app. auto.
  - intros y [<-|Hy] Hb; [apply H2, in_or_app; auto|]. eapply A3; eassumption.
Qed.
Lemma find_mem_none x gs : find (mem x) gs = None <-> ~ In x (List.concat gs).
Proof.
  induction gs as [|g gs IH]; cbn; [tauto|]. rewrite in_app_iff. destruct (mem x g) eqn:E.
  - apply mem_spec in E. split; [discriminate|tauto].
  - rewrite IH. assert (~ In x g) by (intros F; apply mem_spec in F; congruence). tauto.
Qed.
Lemma find_mem_some x gs g : find (mem x) gs = Some g -> In g gs /\ In x g.
Proof. intros H. apply find_some in H as [A B]. apply mem_spec in B. auto. Qed.

Lemma level_reduced d : forall gs m, consistent m -> NoDup (List.concat gs) -> (forall x, In x (List.concat gs) -> links_of m d x <> None) ->
  exists m', for_each gs (executeGroup d) m = Some m' /\ reduced d (collapse gs) m m'.
Proof.
  induction gs as [|g gs IH]; intros m C ND HX; cbn [for_each].
  - exists m. split; [reflexivity|]. eapply reduced_ext; [|apply reduced_refl, C]. reflexivity.
  - cbn [List.concat] in ND, HX. destruct (nodup_app_split _ _ ND) as (N1 & N2 & N3).
    assert (G : exists m1, executeGroup d g m = Some m1 /\ reduced d (fun x => match g with t :: others => if mem x others then t else x | [] => x end) m m1).
    { destruct g as [|t others]; [exists m; split; [reflexivity|apply reduced_refl, C]|]. cbn [executeGroup]. inversion N1; subst.
      apply group_reduced; [exact C| |assumption|].
      - apply HX. left. reflexivity.
      - intros x Hx. apply HX. right. apply in_or_app. auto. }
    destruct G as (m1 & E1 & R1). rewrite E1. destruct (IH m1) as (m2 & E2 & R2).
    + exact (rd_consistent _ _ _ _ R1).
    + exact N2.
    + intros x Hx. rewrite (rd_exist _ _ _ _ R1). apply HX, in_or_app. auto.
    + exists m2. split; [exact E2|]. eapply reduced_ext; [|eapply reduced_trans; eassumption]. intros x. cbn beta.
      unfold collapse at 2. cbn [find]. destruct (mem x g) eqn:Ex.
      * apply mem_spec in Ex. destruct g as [|t others]; [destruct Ex|].
        assert (Et : (if mem x others then t else x) = t) by (destruct Ex as [->|Ex]; [destruct (mem x others); reflexivity|apply mem_spec in Ex; rewrite Ex; reflexivity]).
        rewrite Et. unfold collapse. replace (find (mem t) gs) with (@None (list nat)); [reflexivity|].
        symmetry. apply find_mem_none. intros F. apply (N3 t); [left; reflexivity|exact F].
      * replace (match g with t :: others => if mem x others then t else x | [] => x end) with x; [reflexivity|].
        destruct g as [|t others]; [reflexivity|]. cbn in Ex. destruct (x =? t); [discriminate|]. cbn in Ex. unfold mem. rewrite Ex. reflexivity.
Qed.

Lemma collapse_same gs x y : NoDup (List.concat gs) ->
  (collapse gs x = collapse gs y <-> x = y \/ exists g, In g gs /\ In x g /\ In y g).
Proof.
  intros ND.
  assert (U : forall g g' z, In g gs -> In g' gs -> In z g -> In z g' -> g = g').
  { clear x y. induction gs as [|h gs IH]; [intros ? ? ? []|]; intros g g' z [->|Hg] [->|Hg'] Hz Hz'; try reflexivity.
    - destruct (nodup_app_split _ _ ND) as (_ & _ & N). exfalso. apply (N z Hz). apply in_concat. eauto.
    - destruct (nodup_app_split _ _ ND) as (_ & _ & N). exfalso. apply (N z Hz'). apply in_concat. eauto.
    - destruct (nodup_app_split _ _ ND) as (_ & N2 & _). eapply IH; eassumption. }
  assert (S : forall z g, In g gs -> In z g -> find (mem z) gs = Some g).
  { intros z g Hg Hz. destruct (find (mem z) gs) as [g'|] eqn:E.
    - apply find_mem_some in E as [A B]. f_equal. eapply U; eassumption.
    - apply find_mem_none in E. exfalso. apply E, in_concat. eauto. }
  assert (IN : forall z g, find (mem z) gs = Some g -> In (collapse gs z) g).
  { intros z g E. unfold collapse. rewrite E. apply find_mem_some in E as [_ B]. destruct g; [destruct B|left; reflexivity]. }
  split.
  - intros E. destruct (find (mem x) gs) as [g|] eqn:Ex.
    + pose proof (IN _ _ Ex) as Hc. apply find_mem_some in Ex as [A B]. destruct (find (mem y) gs) as [g'|] eqn:Ey.
      * pose proof (IN _ _ Ey) as Hc'. apply find_mem_some in Ey as [A' B']. right. exists g. rewrite E in Hc.
        rewrite (U _ _ _ A A' Hc Hc') in *. auto.
      * unfold collapse at 2 in E. rewrite Ey in E. right. exists g. rewrite <- E. auto.
    + unfold collapse at 1 in E. rewrite Ex in E. destruct (find (mem y) gs) as [g'|] eqn:Ey.
      * pose proof (IN _ _ Ey) as Hc'. apply find_mem_some in Ey as [A' B']. right. exists g'. rewrite <- E in Hc'. auto.
      * unfold collapse in E. rewrite Ey in E. auto.
  - intros [->|(g & Hg & Hx & Hy)]; [reflexivity|]. unfold collapse. rewrite (S _ _ Hg Hx), (S _ _ Hg Hy).
    destruct g; [destruct Hx|reflexivity].
Qed.

(** All levels *)
Definition executable (m : mesh) (merges : list (list (list nat))) : Prop :=
  length merges = length (meshEntities m) /\
  forall d gs, nth_error merges d = Some gs -> NoDup (List.concat gs) /\ forall x, In x (List.concat gs) -> exists en, links_of m d x = Some en.

Record executed (merges : list (list (list nat))) (m m' : mesh) : Prop := {
  ex_consistent : consistent m';
  ex_part : forall d el l gs, nth_error merges d = Some gs -> part_of m' d el l = option_map (collapse gs) (part_of m d el l);
  ex_coord : forall el l, coord_of m' el l = coord_of m el l;
  ex_shape : forall el, shape_of m' el = shape_of m el;
  ex_dim : length (meshEntities m') = length (meshEntities m) }.

Lemma execute_ok m merges : consistent m -> executable m merges -> exists m', executeMerge merges m = Some m' /\ executed merges m m'.
Proof.
  intros C [HL HX]. unfold executeMerge.
  destruct (for_loop_inv (fun i m1 => consistent m1 /\
     (forall d el l gs, nth_error merges d = Some gs -> part_of m1 d el l = option_map (if d <? i then collapse gs else fun x => x) (part_of m d el l)) /\
     (forall el l, coord_of m1 el l = coord_of m el l) /\ (forall el, shape_of m1 el = shape_of m el) /\
     length (meshEntities m1) = length (meshEntities m) /\ (forall d' y, links_of m1 d' y = None <-> links_of m d' y = None))
     (fun d m => groups <- nth_error merges d; for_each groups (executeGroup d) m) (length (meshEntities m)) m) as (m' & E & I).
  - splits; auto; try tauto. intros. destruct (part_of m d el l); reflexivity.
  - intros i m1 Hi (A1 & A2 & A3 & A4 & A5 & A6). destruct (nth_error merges i) as [gs|] eqn:Eg; [|apply nth_error_None in Eg; lia].
    destruct (HX i gs Eg) as [ND HE]. destruct (level_reduced i gs m1 A1 ND) as (m2 & E2 & R).
    { intros x Hx. rewrite A6. destruct (HE x Hx) as (en & ->). discriminate. }
    exists m2. split; [exact E2|]. destruct R. splits; auto; try congruence.
    + intros d el l gs' Hgs. rewrite rd_part0, (A2 _ _ _ _ Hgs). destruct (Nat.eqb_spec d i) as [->|N].
      * assert (gs' = gs) by congruence. subst. rewrite Nat.ltb_irrefl. replace (i <? S i) with true by (symmetry; apply Nat.ltb_lt; lia).
        destruct (part_of m i el l); reflexivity.
      * replace (d <? S i) with (d <? i) by (destruct (Nat.ltb_spec d i), (Nat.ltb_spec d (S i)); try reflexivity; lia).
        destruct (part_of m d el l); reflexivity.
    + intros d' y. rewrite rd_exist0. apply A6.
  - exists m'. split; [exact E|]. destruct I as (A1 & A2 & A3 & A4 & A5 & A6). constructor; auto.
    intros d el l gs Hgs. rewrite (A2 _ _ _ _ Hgs). assert (d < length merges) by (apply nth_error_Some; congruence).
    replace (d <? length (meshEntities m)) with true by (symmetry; apply Nat.ltb_lt; lia). reflexivity.
Qed.

(** ** Computing a plan *)
Lemma for_each_done {A St} (P : list A -> St -> Prop) (body : A -> St -> option St) : forall l done s s', P done s ->
  (forall done x s s', In x l -> P done s -> body x s = Some s' -> P (done ++ [x]) s') ->
  for_each l body s = Some s' -> P (done ++ l) s'.
Proof.
  induction l as [|x l IH]; intros done s s' H0 HB H; cbn in H.
  - rewrite app_nil_r. congruence.
  - destruct (body x s) as [s1|] eqn:E; [|discriminate]. change (x :: l) with ([x] ++ l). rewrite app_assoc. eapply IH; [|intros; eapply HB; [right|..]; eassumption|exact H].
    eapply HB; [left; reflexivity|eassumption..].
Qed.
Lemma for_each_total {A St} (body : A -> St -> option St) l : (forall x s, In x l -> body x s <> None) -> forall s, for_each l body s <> None.
Proof.
  induction l as [|x l IH]; intros HB s; cbn; [discriminate|]. destruct (body x s) eqn:E; [|exfalso; exact (HB x s (or_introl eq_refl) E)].
  apply IH. intros y t Hy. apply HB. right. exact Hy.
Qed.

Lemma coord_of_get m el e l : getElement m el = Some e -> coord_of m el l = getCoordinateIndex e l.
Proof. unfold coord_of, getElement, getCoordinateIndex. intros ->. reflexivity. Qed.
Lemma part_of_get m el e d l : getElement m el = Some e -> part_of m d el l = getIncidentEntityIndex e d l.
Proof. unfold part_of, getElement, getIncidentEntityIndex. intros ->. reflexivity. Qed.
Lemma shape_of_get m el e : getElement m el = Some e -> shape_of m el = Some (referenceGeometry e).
Proof. unfold shape_of, getElement. intros ->. reflexivity. Qed.

Definition valid_coord (m : mesh) (c : nat) := exists n en, nth_error (coordinates m) c = Some (Some n) /\ links_of m 0 n = Some en.

Lemma adjacent_spec m pairing side : consistent m -> (forall p, In p pairing -> valid_coord m (side p)) ->
  exists els, computeAdjacentElements m pairing side = Some els /\
    forall el, In el els <-> exists p l, In p pairing /\ coord_of m el l = Some (side p).
Proof.
  intros C V. unfold computeAdjacentElements.
  assert (T : forall p, In p pairing -> exists n en, nodeIndex m (side p) = Some n /\ getEntity m 0 n = Some en /\ NoDup en /\ forall el l, In (el, l) en <-> part_of m 0 el l = Some n).
  { intros p Hp. destruct (V p Hp) as (n & en & E1 & E2). exists n, en. unfold nodeIndex. rewrite E1. destruct (c_links m C 0 n en E2). auto. }
  assert (Q : forall p n en, In p pairing -> nodeIndex m (side p) = Some n -> getEntity m 0 n = Some en -> forall el l, In (el, l) en ->
     exists e c, getElement m el = Some e /\ getCoordinateIndex e l = Some c /\ coord_of m el l = Some c).
  { intros p n en Hp E1 E2 el l Hin. apply (c_links m C 0 n en E2) in Hin. pose proof (c_coords m C el l) as CC. rewrite Hin in CC.
    destruct (coord_of m el l) as [c|] eqn:Ec; [|destruct CC]. unfold coord_of in Ec. destruct (nth_error (elementsList m) el) as [e|] eqn:Ee; [|discriminate].
    exists e, c. auto. }
  match goal with |- exists els, for_each pairing ?body [] = Some els /\ _ => set (b := body) end.
  assert (TB : forall p s, In p pairing -> b p s <> None).
  { intros p s Hp. unfold b. destruct (T p Hp) as (n & en & E1 & E2 & _ & HL). rewrite E1, E2. apply for_each_total.
    intros [el l] s1 Hin. destruct (Q p n en Hp E1 E2 el l Hin) as (e & c & Ee & Ec & _). rewrite Ee, Ec. discriminate. }
  destruct (for_each pairing b []) as [els|] eqn:E; [|exfalso; exact (for_each_total b pairing TB [] E)]. exists els. split; [reflexivity|].
  pose proof (for_each_done (fun done s => forall el, In el s <-> exists p l, In p done /\ coord_of m el l = Some (side p)) b pairing [] [] els) as D.
  cbn [app] in D. apply D; [| |exact E].
  - intros el. split; [intros []|intros (p & l & [] & _)].
  - clear D E els. intros done p s s' Hp IH H. unfold b in H. destruct (T p Hp) as (n & en & E1 & E2 & _ & HL). rewrite E1, E2 in H.
    match type of H with for_each en ?body s = _ => set (b2 := body) in H end.
    pose proof (for_each_done (fun (dn : list (nat * nat)) s1 => forall el, In el s1 <-> In el s \/ exists l, In (el, l) dn /\ coord_of m el l = Some (side p)) b2 en [] s s') as D.
    cbn [app] in D. intros el. rewrite D; [|intros; firstorder| |exact H].
    + rewrite IH. split.
      * intros [(q & l & Hq & Hc)|(l & _ & Hc)]; [exists q, l|exists p, l]; (split; [apply in_or_app; cbn; auto|exact Hc]).
      * intros (q & l & Hq & Hc). apply in_app_or in Hq as [Hq|[<-|[]]]; [left; eauto|]. right. exists l. split; [|exact Hc]. apply HL.
        pose proof (c_coords m C el l) as CC. rewrite Hc in CC. destruct (part_of m 0 el l) as [x|]; [|destruct CC]. unfold nodeIndex in E1. rewrite CC in E1. exact E1.
    + clear D H el. intros dn [el l] s1 s2 Hin IH1 H. cbn [b2] in H. destruct (Q p n en Hp E1 E2 el l Hin) as (e & c & Ee & Ec & Hc). unfold b2 in H. rewrite Ee, Ec in H.
      injection H as <-. intros el'. destruct (Nat.eqb_spec c (side p)) as [->|N].
      * rewrite (sinsert_in _ nat_strict_total), IH1. split.
        -- intros [->|[H|(l' & H & H')]]; [right; exists l|left; exact H|right; exists l']; (split; [apply in_or_app; cbn; auto|assumption]).
        -- intros [H|(l' & H & H')]; [auto|]. apply in_app_or in H as [H|[H|[]]]; [right; right; eauto|injection H as <- <-; auto].
      * rewrite IH1. split; (intros [H|(l' & H & H')]; [left; exact H|right; exists l'; split; [|exact H']]).
        -- apply in_or_app. auto.
        -- apply in_app_or in H as [H|[H|[]]]; [exact H|]. injection H as <- <-. congruence.
Qed.

Lemma forall2_impl {A B} (R R' : A -> B -> Prop) xs ys : (forall x y, R x y -> R' x y) -> Forall2 R xs ys -> Forall2 R' xs ys.
Proof. intros H. induction 1; constructor; auto. Qed.

Lemma forall2_length {A B} (R : A -> B -> Prop) xs ys : Forall2 R xs ys -> length xs = length ys.
Proof. induction 1; cbn; congruence. Qed.

(** The loop over the parts of elements *)
Section Slots.
Variables (m : mesh) (d : nat).
Hypotheses (C : consistent m) (W : whole m) (Hd : 1 <= d < length (meshEntities m)).

Lemma slot_count el e : getElement m el = Some e -> exists ps, nth_error (referenceGeometry e) d = Some ps /\
  getNumberOfIncidentEntities e d = Some (length ps) /\
  (forall l, part_of m d el l <> None <-> l < length ps) /\
  forall l nodes, nth_error ps l = Some nodes -> nodes <> [] /\ NoDup nodes /\ forall n, In n nodes -> coord_of m el n <> None.
Proof.
  intros Ee. destruct (W el _ (shape_of_get m el e Ee) d Hd) as (ps & E1 & N & E2 & E3). exists ps. splits; auto.
  unfold getNumberOfIncidentEntities, getNumberOfEntities. rewrite E1. cbn [option_map].
  assert (P0 : part_of m d el 0 <> None) by (apply E2; destruct ps; [congruence|cbn; lia]).
  rewrite (part_of_get m el e d 0 Ee) in P0. unfold getIncidentEntityIndex in P0.
  destruct (nth_error (incidenceLists e) d) as [ls|] eqn:El; [|congruence].
  destruct (Nat.ltb_spec (length ls) (length ps)) as [F|F]; [|reflexivity]. exfalso.
  apply E2 in F. rewrite (part_of_get m el e d _ Ee) in F. unfold getIncidentEntityIndex in F. rewrite El in F.
  apply F. apply nth_error_None. lia.
Qed.

Lemma bounding_done {St} (P : list (nat * nat) -> St -> Prop) (f : element -> nat -> St -> option St) els s s' :
  P [] s ->
  (forall done el e l x s s', In el els -> getElement m el = Some e -> part_of m d el l = Some x -> P done s -> f e l s = Some s' -> P (done ++ [(el, l)]) s') ->
  forEachBoundingEntity m d els f s = Some s' ->
  exists done, P done s' /\ forall el l, In (el, l) done <-> In el els /\ part_of m d el l <> None.
Proof.
  intros H0 HB H. unfold forEachBoundingEntity in H.
  match type of H with for_each els ?body s = _ => set (b := body) in H end.
  pose proof (for_each_done (fun (dn : list nat) s1 => incl dn els -> exists done, P done s1 /\ forall el l, In (el, l) done <-> In el dn /\ part_of m d el l <> None) b els [] s s') as D.
  cbn [app] in D. apply D; [| |exact H|apply incl_refl].
  - intros _. exists []. split; [exact H0|]. intros; cbn; tauto.
  - clear D H H0 s s'. intros dn el s s' Hel IH H I. destruct IH as (done & HP & HD); [intros y Hy; apply I, in_or_app; auto|].
    unfold b in H. destruct (getElement m el) as [e|] eqn:Ee; [|discriminate]. destruct (slot_count el e Ee) as (ps & E1 & E2 & E3 & _). rewrite E2 in H.
    enough (G : forall n start s s' done0, start + n <= length ps -> P done0 s -> for_from start n (f e) s = Some s' ->
       exists done1, P done1 s' /\ forall el' l, In (el', l) done1 <-> In (el', l) done0 \/ (el' = el /\ start <= l < start + n)).
    { unfold for_loop in H. destruct (G (length ps) 0 s s' done (le_n _) HP H) as (done1 & P1 & D1). exists done1. split; [exact P1|].
      intros el' l. rewrite D1, HD, in_app_iff. cbn [In]. split.
      - intros [[A B]|[-> B]]; [tauto|]. split; [auto|]. apply E3. lia.
      - intros [[A|[<-|[]]] B]; [auto|]. apply E3 in B. right. split; [reflexivity|lia]. }
    clear s s' H HP HD done. induction n as [|n IH]; intros start s s' done Hn HP H; cbn in H.
    + exists done. split; [congruence|]. intros. split; [auto|intros [?|[? ?]]; [assumption|lia]].
    + destruct (f e start s) as [s1|] eqn:E; [|discriminate]. assert (Hp : part_of m d el start <> None) by (apply E3; lia).
      destruct (part_of m d el start) as [x|] eqn:Ex; [|congruence].
      assert (P1 : P (done ++ [(el, start)]) s1) by (eapply HB; eassumption).
      destruct (IH (S start) s1 s' _ ltac:(lia) P1 H) as (done1 & P2 & D). exists done1. split; [exact P2|].
      intros el' l. rewrite D, in_app_iff. cbn [In]. split.
      * intros [[A|[A|[]]]|[A B]]; [auto|injection A as -> ->; right; split; [reflexivity|lia]|right; split; [exact A|lia]].
      * intros [A|[-> B]]; [auto|]. destruct (Nat.eq_dec l start) as [->|]; [auto|]. right. split; [reflexivity|lia].
Qed.
Lemma bounding_total {St} (f : element -> nat -> St -> option St) els :
  (forall el, In el els -> getElement m el <> None) ->
  (forall el e l x s, In el els -> getElement m el = Some e -> part_of m d el l = Some x -> f e l s <> None) ->
  forall s, forEachBoundingEntity m d els f s <> None.
Proof.
  intros HE HB. unfold forEachBoundingEntity. apply for_each_total. intros el s Hel.
  destruct (getElement m el) as [e|] eqn:Ee; [|exfalso; exact (HE el Hel Ee)]. destruct (slot_count el e Ee) as (ps & E1 & E2 & E3 & _). rewrite E2.
  unfold for_loop. enough (G : forall n start s, start + n <= length ps -> for_from start n (f e) s <> None) by (apply G; lia).
  clear s. induction n as [|n IH]; intros start s Hn; cbn; [discriminate|].
  assert (Hp : part_of m d el start <> None) by (apply E3; lia). destruct (part_of m d el start) as [x|] eqn:Ex; [|congruence].
  destruct (f e start s) as [s1|] eqn:E; [|exfalso; exact (HB _ _ _ _ _ Hel Ee Ex E)]. apply IH. lia.
Qed.

Lemma slot_coords el e l x : getElement m el = Some e -> part_of m d el l = Some x -> exists nodes cs,
  getNodesOfEntity (referenceGeometry e) d l = Some nodes /\ Forall2 (fun n c => getCoordinateIndex e n = Some c) nodes cs /\
  coordinates_of m d el l cs /\ nodes <> [] /\ NoDup nodes.
Proof.
  intros Ee Hx. destruct (slot_count el e Ee) as (ps & E1 & _ & E3 & E4).
  assert (Hl : l < length ps) by (apply E3; congruence). destruct (nth_error ps l) as [nodes|] eqn:En; [|apply nth_error_None in En; lia].
  destruct (E4 l nodes En) as (N1 & N2 & N3).
  assert (F : exists cs, Forall2 (fun n c => getCoordinateIndex e n = Some c) nodes cs).
  { clear N1 N2 En. induction nodes as [|n nodes IH]; [exists []; constructor|]. destruct IH as (cs & F); [intros; apply N3; right; assumption|].
    pose proof (N3 n (or_introl eq_refl)) as G. rewrite (coord_of_get m el e n Ee) in G. destruct (getCoordinateIndex e n) as [c|] eqn:Ec; [|congruence].
    exists (c :: cs). constructor; assumption. }
  destruct F as (cs & F). exists nodes, cs. unfold getNodesOfEntity, part. rewrite E1. splits; auto.
  exists (referenceGeometry e), nodes. splits; [apply shape_of_get, Ee|unfold part; rewrite E1; exact En|].
  eapply forall2_impl; [|exact F]. intros n c Hc. rewrite (coord_of_get m el e n Ee). exact Hc.
Qed.
End Slots.

Lemma forall2_fun {A B} (f : A -> option B) xs : forall ys ys', Forall2 (fun x y => f x = Some y) xs ys -> Forall2 (fun x y => f x = Some y) xs ys' -> ys = ys'.
Proof. intros ys ys' F; revert ys'. induction F; intros ys' F'; inversion F'; subst; [reflexivity|]. f_equal; [congruence|auto]. Qed.
Lemma coordinates_of_fun m d el l cs cs' : coordinates_of m d el l cs -> coordinates_of m d el l cs' -> cs = cs'.
Proof. intros (s & n & A & B & F) (s' & n' & A' & B' & F'). assert (s' = s) by congruence. subst. assert (n' = n) by congruence. subst. eapply forall2_fun; eassumption. Qed.
Lemma forall2_in_l {A B} (R : A -> B -> Prop) xs ys x : Forall2 R xs ys -> In x xs -> exists y, In y ys /\ R x y.
Proof. induction 1; intros []; [subst; eexists; split; [left; reflexivity|assumption]|]. destruct IHForall2 as (z & ? & ?); [assumption|]. exists z. split; [right; assumption|assumption]. Qed.
Lemma forall2_in_r {A B} (R : A -> B -> Prop) xs ys y : Forall2 R xs ys -> In y ys -> exists x, In x xs /\ R x y.
Proof. induction 1; intros []; [subst; eexists; split; [left; reflexivity|assumption]|]. destruct IHForall2 as (z & ? & ?); [assumption|]. exists z. split; [right; assumption|assumption]. Qed.
Lemma forall2_nodup {A B} (R : A -> B -> Prop) xs ys : (forall a b c, R a c -> R b c -> a = b) -> Forall2 R xs ys -> NoDup xs -> NoDup ys.
Proof.
  intros I. induction 1; intros N; constructor; inversion N; subst; auto. intros F. destruct (forall2_in_r _ _ _ _ H0 F) as (z & Hz & HR).
  rewrite (I _ _ _ HR H) in Hz. contradiction.
Qed.

Lemma set_fold l : forall acc, ssorted Nat.ltb acc -> ssorted Nat.ltb (fold_left (fun s x => sinsert Nat.ltb x s) l acc) /\
  forall x, In x (fold_left (fun s x => sinsert Nat.ltb x s) l acc) <-> In x l \/ In x acc.
Proof.
  induction l as [|a l IH]; intros acc H; cbn [fold_left]; [split; [exact H|cbn; tauto]|].
  destruct (IH (sinsert Nat.ltb a acc)) as [A B]; [apply (sinsert_sorted _ nat_strict_total), H|]. split; [exact A|].
  intros x. rewrite B, (sinsert_in _ nat_strict_total). cbn [In]. intuition auto.
Qed.
Lemma set_of_sorted l : ssorted Nat.ltb (set_of l). Proof. apply set_fold. constructor. Qed.
Lemma set_of_in l x : In x (set_of l) <-> In x l. Proof. unfold set_of. rewrite (proj2 (set_fold l [] ltac:(constructor))). cbn. tauto. Qed.
Lemma set_of_ext l l' : set_of l = set_of l' <-> forall x, In x l <-> In x l'.
Proof.
  split.
  - intros E x. rewrite <- (set_of_in l), <- (set_of_in l'), E. tauto.
  - intros H. apply (ssorted_ext _ nat_strict_total); [apply set_of_sorted..|]. intros x. rewrite !set_of_in. apply H.
Qed.
Lemma set_of_length l : NoDup l -> length (set_of l) = length l.
Proof.
  intros N. apply Nat.le_antisymm; apply NoDup_incl_length.
  - apply (ssorted_nodup _ nat_strict_total), set_of_sorted.
  - intros x. apply set_of_in.
  - exact N.
  - intros x. apply set_of_in.
Qed.

(** the coordinates that the pairing gives *)
Definition mapped_body (e : element) (pairing : list (nat * nat)) : nat -> option (list nat) -> option (option (list nat)) := fun n acc =>
  match acc with
  | None => Some None
  | Some rightCoords => c <- getCoordinateIndex e n; match mfind Nat.ltb c pairing with None => Some None | Some c' => Some (Some (sinsert Nat.ltb c' rightCoords)) end
  end.
Lemma mapped_none e pairing nodes cs : Forall2 (fun n c => getCoordinateIndex e n = Some c) nodes cs -> for_each nodes (mapped_body e pairing) None = Some None.
Proof. induction 1; cbn; [reflexivity|exact IHForall2]. Qed.
Lemma mapped_spec e pairing nodes cs : Forall2 (fun n c => getCoordinateIndex e n = Some c) nodes cs -> forall acc,
  (exists cs', Forall2 (fun c c' => mfind Nat.ltb c pairing = Some c') cs cs' /\
     for_each nodes (mapped_body e pairing) (Some acc) = Some (Some (fold_left (fun s x => sinsert Nat.ltb x s) cs' acc))) \/
  ((exists c, In c cs /\ mfind Nat.ltb c pairing = None) /\ for_each nodes (mapped_body e pairing) (Some acc) = Some None).
Proof.
  induction 1 as [|n c nodes cs E F IH]; intros acc; cbn [for_each mapped_body].
  - left. exists []. split; [constructor|reflexivity].
  - rewrite E. destruct (mfind Nat.ltb c pairing) as [c'|] eqn:Ec.
    + destruct (IH (sinsert Nat.ltb c' acc)) as [(cs' & A & B)|[(c0 & A & A') B]].
      * left. exists (c' :: cs'). split; [constructor; assumption|exact B].
      * right. split; [exists c0; split; [right; exact A|exact A']|exact B].
    + right. split; [exists c; split; [left; reflexivity|exact Ec]|]. eapply mapped_none; eassumption.
Qed.

Section Plan.
Variables (m : mesh) (pairing : list (nat * nat)).
Hypotheses (C : consistent m) (W : whole m) (PE : proper_elements m) (V : valid_pairing m pairing).

Lemma pairing_find c c' : mfind Nat.ltb c pairing = Some c' <-> In (c, c') pairing.
Proof.
  apply (mfind_in _ nat_strict_total). destruct V as [S _]. unfold ksorted. clear -S.
  induction S as [|p l S IH F]; cbn; constructor; [exact IH|].
  rewrite Forall_map. eapply Forall_impl; [|exact F]. intros q Hq. apply Nat.ltb_lt. exact Hq.
Qed.
Definition mapped_to (cs cs' : list nat) := Forall2 (fun c c' => mfind Nat.ltb c pairing = Some c') cs cs'.

Lemma mapped_maps cs cs' cs2 : mapped_to cs cs' -> (set_of cs' = set_of cs2 <-> maps_to pairing cs cs2).
Proof.
  intros F. rewrite set_of_ext. split.
  - intros H. split.
    + intros c Hc. destruct (forall2_in_l _ _ _ _ F Hc) as (c' & _ & E). exists c'. apply pairing_find, E.
    + intros c'. rewrite <- H. split.
      * intros Hc'. destruct (forall2_in_r _ _ _ _ F Hc') as (c & Hc & E). exists c. split; [exact Hc|apply pairing_find, E].
      * intros (c & Hc & E). destruct (forall2_in_l _ _ _ _ F Hc) as (c2 & Hc2 & E2). apply pairing_find in E. congruence.
  - intros [H1 H2] c'. rewrite H2. split.
    + intros Hc'. destruct (forall2_in_r _ _ _ _ F Hc') as (c & Hc & E). exists c. split; [exact Hc|apply pairing_find, E].
    + intros (c & Hc & E). destruct (forall2_in_l _ _ _ _ F Hc) as (c2 & Hc2 & E2). apply pairing_find in E. congruence.
Qed.
Lemma maps_mapped cs cs2 : maps_to pairing cs cs2 -> exists cs', mapped_to cs cs'.
Proof.
  intros [H _]. induction cs as [|c cs IH]; [exists []; constructor|]. destruct IH as (cs' & F); [intros; apply H; right; assumption|].
  destruct (H c (or_introl eq_refl)) as (c' & E). exists (c' :: cs'). constructor; [apply pairing_find, E|exact F].
Qed.
Lemma slot_nodup d el l cs : (forall nodes s, shape_of m el = Some s -> part s d l = Some nodes -> NoDup nodes) -> coordinates_of m d el l cs -> NoDup cs.
Proof.
  intros N (s & nodes & E1 & E2 & F). apply (forall2_nodup (fun n c => coord_of m el n = Some c) nodes cs); [|exact F|eapply N; eassumption].
  intros a b c Ha Hb. eapply PE; eassumption.
Qed.
Lemma injective_back cs1 cs1' cs2 cs2' : injective pairing -> mapped_to cs1 cs1' -> mapped_to cs2 cs2' -> set_of cs1' = set_of cs2' -> forall c, In c cs1 <-> In c cs2.
Proof.
  intros I F1 F2 E. rewrite set_of_ext in E.
  enough (G : forall cs1 cs1' cs2 cs2', mapped_to cs1 cs1' -> mapped_to cs2 cs2' -> (forall x, In x cs1' <-> In x cs2') -> forall c, In c cs1 -> In c cs2).
  { intros c. split; [eapply G; eassumption|eapply G; try eassumption]. intros x. symmetry. apply E. }
  clear -I V. intros cs1 cs1' cs2 cs2' F1 F2 E c Hc. destruct (forall2_in_l _ _ _ _ F1 Hc) as (c' & Hc' & Ec). apply E in Hc'.
  destruct (forall2_in_r _ _ _ _ F2 Hc') as (c2 & Hc2 & E2). apply pairing_find in Ec, E2. rewrite (I _ _ _ Ec E2). exact Hc2.
Qed.

Section Level.
Variable d : nat.
Hypothesis Hd : 1 <= d < length (meshEntities m).

(** [k] is the mapped set of slot [(el, l)], which is entity [x] *)
Definition candidate (el l : nat) (k : list nat) (x : nat) : Prop :=
  exists cs cs', part_of m d el l = Some x /\ coordinates_of m d el l cs /\ mapped_to cs cs' /\ k = set_of cs'.

Lemma candidate_unique el l k x el' l' x' : shared m -> injective pairing -> candidate el l k x -> candidate el' l' k x' -> x = x'.
Proof.
  intros SH I (cs & cs' & A1 & A2 & A3 & A4) (cs2 & cs2' & B1 & B2 & B3 & B4).
  eapply SH with (d := d); [lia|eassumption..|]. eapply injective_back; [exact I|eassumption..|congruence].
Qed.

Lemma candidates_spec left cand : findLeftCandidates m d pairing left = Some cand ->
  (forall k x, kfind k cand = Some x -> exists el l, In el left /\ candidate el l k x) /\
  (shared m -> injective pairing -> forall el l k x, In el left -> candidate el l k x -> kfind k cand = Some x).
Proof.
  intros H. unfold findLeftCandidates in H.
  apply (bounding_done m d W Hd (fun done cand =>
    (forall el l, In (el, l) done -> In el left) /\
    (forall k x, kfind k cand = Some x -> exists el l, In (el, l) done /\ candidate el l k x) /\
    (shared m -> injective pairing -> forall el l k x, In (el, l) done -> candidate el l k x -> kfind k cand = Some x))) in H.
  - destruct H as (done & (H0 & H1 & H2) & HD). split.
    + intros k x Hk. destruct (H1 k x Hk) as (el & l & A & B). exists el, l. split; [eapply H0; exact A|exact B].
    + intros SH I el l k x Hel Hc. eapply H2; [exact SH|exact I| |exact Hc]. apply HD. split; [exact Hel|]. destruct Hc as (? & ? & E & _). congruence.
  - splits; [intros ? ? []|intros k x Hk; discriminate|intros _ _ ? ? ? ? []].
  - intros done el e l x cand0 cand1 Hel Ee Ex (H0 & H1 & H2) E. clear H cand.
    destruct (slot_coords m d W Hd el e l x Ee Ex) as (nodes & cs & En & F & CO & _ & _). rewrite En in E.
    fold (mapped_body e pairing) in E. destruct (mapped_spec e pairing nodes cs F []) as [(cs' & A & B)|[(c & A & A') B]]; rewrite B in E.
    + fold (set_of cs') in E. destruct (Nat.eqb_spec (length nodes) (length (set_of cs'))) as [EL|]; [|discriminate].
      rewrite <- (part_of_get m el e d l Ee), Ex in E. injection E as <-.
      assert (CA : candidate el l (set_of cs') x) by (exists cs, cs'; splits; auto).
      splits.
      * intros el' l' Hin. apply in_app_or in Hin as [Hin|[Hin|[]]]; [eauto|injection Hin as <- <-; exact Hel].
      * intros k y Hk. destruct (list_eq_dec Nat.eq_dec (set_of cs') k) as [<-|N].
        -- rewrite (mfind_put_same _ (lex_strict_total _ nat_strict_total)) in Hk. injection Hk as <-. exists el, l. split; [apply in_or_app; cbn; auto|exact CA].
        -- rewrite (mfind_put_other _ (lex_strict_total _ nat_strict_total)) in Hk by exact N. destruct (H1 k y Hk) as (el' & l' & P & Q). exists el', l'. split; [apply in_or_app; auto|exact Q].
      * intros SH I el' l' k y Hin Hc. destruct (list_eq_dec Nat.eq_dec (set_of cs') k) as [<-|N].
        -- rewrite (mfind_put_same _ (lex_strict_total _ nat_strict_total)). f_equal. eapply candidate_unique; eassumption.
        -- rewrite (mfind_put_other _ (lex_strict_total _ nat_strict_total)) by exact N. apply in_app_or in Hin as [Hin|[Hin|[]]]; [eapply H2; eassumption|].
           injection Hin as <- <-. exfalso. destruct Hc as (cs2 & cs2' & _ & B2 & B3 & B4). rewrite (coordinates_of_fun _ _ _ _ _ _ B2 CO) in B3.
           rewrite (forall2_fun _ _ _ _ B3 A) in B4. congruence.
    + injection E as <-. splits.
      * intros el' l' Hin. apply in_app_or in Hin as [Hin|[Hin|[]]]; [eauto|injection Hin as <- <-; exact Hel].
      * intros k y Hk. destruct (H1 k y Hk) as (el' & l' & P & Q). exists el', l'. split; [apply in_or_app; auto|exact Q].
      * intros SH I el' l' k y Hin Hc. apply in_app_or in Hin as [Hin|[Hin|[]]]; [eapply H2; eassumption|]. injection Hin as <- <-. exfalso.
        destruct Hc as (cs2 & cs2' & _ & B2 & B3 & B4). rewrite (coordinates_of_fun _ _ _ _ _ _ B2 CO) in B3.
        destruct (forall2_in_l _ _ _ _ B3 A) as (c2 & _ & Q). congruence.
Qed.
Lemma candidates_total left : injective pairing -> (forall el, In el left -> getElement m el <> None) -> findLeftCandidates m d pairing left <> None.
Proof.
  intros I HE. unfold findLeftCandidates. apply (bounding_total m d W Hd); [exact HE|]. intros el e l x s Hel Ee Ex.
  destruct (slot_coords m d W Hd el e l x Ee Ex) as (nodes & cs & En & F & CO & _ & ND). rewrite En.
  fold (mapped_body e pairing). destruct (mapped_spec e pairing nodes cs F []) as [(cs' & A & B)|[(c & A & A') B]]; rewrite B; [|discriminate].
  fold (set_of cs'). assert (N1 : NoDup cs).
  { apply (slot_nodup d el l); [|exact CO]. intros nodes' s0 Hs Hp. rewrite (shape_of_get m el e Ee) in Hs. injection Hs as <-. unfold getNodesOfEntity in En. congruence. }
  assert (N2 : NoDup cs').
  { eapply forall2_nodup; [|exact A|exact N1]. cbn beta. intros a b c Ha Hb. apply pairing_find in Ha, Hb. eapply I; eassumption. }
  rewrite (set_of_length _ N2), (forall2_length _ _ _ F), (forall2_length _ _ _ A), Nat.eqb_refl.
  rewrite <- (part_of_get m el e d l Ee), Ex. discriminate.
Qed.

Lemma coords_loop e nodes cs : Forall2 (fun n c => getCoordinateIndex e n = Some c) nodes cs -> forall acc,
  for_each nodes (fun n acc => c <- getCoordinateIndex e n; Some (acc ++ [c])) acc = Some (acc ++ cs).
Proof.
  induction 1 as [|n c nodes cs E F IH]; intros acc; cbn; [rewrite app_nil_r; reflexivity|]. rewrite E, IH, <- app_assoc. reflexivity.
Qed.

Definition level_body (cand : list (list nat * nat)) : element -> nat -> list (nat * nat) -> option (list (nat * nat)) := fun e rid pairs =>
    nodes <- getNodesOfEntity (referenceGeometry e) d rid;
    coords <- for_each nodes (fun n acc => c <- getCoordinateIndex e n; Some (acc ++ [c])) [];
    match kfind (set_of coords) cand with
    | None => Some pairs
    | Some leftEntity => x <- getIncidentEntityIndex e d rid; Some (pairs ++ [(leftEntity, x)])
    end.

Lemma pairs_spec cand right pairs : forEachBoundingEntity m d right (level_body cand) [] = Some pairs ->
  forall a x, In (a, x) pairs <-> exists el l cs, In el right /\ part_of m d el l = Some x /\ coordinates_of m d el l cs /\ kfind (set_of cs) cand = Some a.
Proof.
  intros H.
  apply (bounding_done m d W Hd (fun done pairs => (forall el l, In (el, l) done -> In el right) /\ forall a x, In (a, x) pairs <->
     exists el l cs, In (el, l) done /\ part_of m d el l = Some x /\ coordinates_of m d el l cs /\ kfind (set_of cs) cand = Some a)) in H.
  - destruct H as (done & (H0 & H1) & HD). intros a x. rewrite H1. split.
    + intros (el & l & cs & A & B). exists el, l, cs. split; [eapply H0, A|exact B].
    + intros (el & l & cs & A & B & R). exists el, l, cs. splits; auto; try tauto. apply HD. split; [exact A|congruence].
  - split; [intros ? ? []|]. intros a x. split; [intros []|intros (? & ? & ? & [] & _)].
  - clear H pairs. intros done el e l x s s' Hel Ee Ex (H0 & H1) E. split.
    { intros el' l' Hin. apply in_app_or in Hin as [Hin|[Hin|[]]]; [eauto|injection Hin as <- <-; exact Hel]. }
    destruct (slot_coords m d W Hd el e l x Ee Ex) as (nodes & cs & En & F & CO & _ & _). unfold level_body in E. rewrite En, (coords_loop _ _ _ F) in E. cbn [app] in E.
    destruct (kfind (set_of cs) cand) as [a0|] eqn:Ek.
    + rewrite <- (part_of_get m el e d l Ee), Ex in E. injection E as <-. intros a y. rewrite in_app_iff, H1. cbn [In]. split.
      * intros [(el' & l' & cs2 & A & B)|[Q|[]]]; [exists el', l', cs2; split; [apply in_or_app; auto|exact B]|]. injection Q as <- <-.
        exists el, l, cs. splits; auto. apply in_or_app. cbn. auto.
      * intros (el' & l' & cs2 & A & B1 & B2 & B3). apply in_app_or in A as [A|[A|[]]]; [left; exists el', l', cs2; auto|]. injection A as <- <-.
        right. left. rewrite (coordinates_of_fun _ _ _ _ _ _ B2 CO) in B3. congruence.
    + injection E as <-. intros a y. rewrite H1. split.
      * intros (el' & l' & cs2 & A & B). exists el', l', cs2. split; [apply in_or_app; auto|exact B].
      * intros (el' & l' & cs2 & A & B1 & B2 & B3). apply in_app_or in A as [A|[A|[]]]; [exists el', l', cs2; auto|]. injection A as <- <-.
        exfalso. rewrite (coordinates_of_fun _ _ _ _ _ _ B2 CO) in B3. congruence.
Qed.

Lemma slot_nonempty el l x cs : part_of m d el l = Some x -> coordinates_of m d el l cs -> exists c n, In c cs /\ coord_of m el n = Some c.
Proof.
  intros Hp (s & nodes & E1 & E2 & F). unfold shape_of in E1. destruct (nth_error (elementsList m) el) as [e|] eqn:Ee; [|discriminate]. injection E1 as <-.
  destruct (slot_coords m d W Hd el e l x Ee Hp) as (nodes' & cs' & En & _ & _ & N & _). unfold getNodesOfEntity in En. assert (nodes' = nodes) by congruence. subst.
  destruct F as [|n c nodes cs Hc F]; [congruence|]. exists c, n. split; [left; reflexivity|exact Hc].
Qed.

Lemma level_spec left right pairs :
  (forall el, In el left <-> exists p l, In p pairing /\ coord_of m el l = Some (fst p)) ->
  (forall el, In el right <-> exists p l, In p pairing /\ coord_of m el l = Some (snd p)) ->
  levelPairs m d pairing left right = Some pairs ->
  (forall a x, In (a, x) pairs -> identified m pairing d a x) /\
  (shared m -> injective pairing -> forall a x, identified m pairing d a x -> In (a, x) pairs).
Proof.
  intros HL HR H. unfold levelPairs in H. destruct (findLeftCandidates m d pairing left) as [cand|] eqn:Ec; [|discriminate].
  fold (level_body cand) in H. pose proof (pairs_spec cand right pairs H) as PS. destruct (candidates_spec left cand Ec) as [CS1 CS2].
  assert (ID : forall a x, identified m pairing d a x <-> exists el l el' l' cs cs', part_of m d el l = Some a /\ part_of m d el' l' = Some x /\
           coordinates_of m d el l cs /\ coordinates_of m d el' l' cs' /\ maps_to pairing cs cs') by (intros; destruct d; [lia|reflexivity]).
  split.
  - intros a x Hin. apply ID. apply PS in Hin as (el' & l' & cs2 & _ & B1 & B2 & B3). destruct (CS1 _ _ B3) as (el & l & _ & cs & cs' & A1 & A2 & A3 & A4).
    exists el, l, el', l', cs, cs2. splits; auto. apply (mapped_maps _ _ _ A3). auto.
  - intros SH I a x Hid. apply ID in Hid as (el & l & el' & l' & cs & cs2 & A1 & A2 & A3 & A4 & A5). apply PS.
    destruct (maps_mapped _ _ A5) as (cs' & F). exists el', l', cs2. splits; auto.
    + apply HR. destruct (slot_nonempty _ _ _ _ A2 A4) as (c' & n & Hc' & Hn). apply (proj2 A5) in Hc' as (c & _ & Hp). exists (c, c'), n. auto.
    + apply (CS2 SH I el l).
      * apply HL. destruct (slot_nonempty _ _ _ _ A1 A3) as (c & n & Hc & Hn). apply (proj1 A5) in Hc as (c' & Hp). exists (c, c'), n. auto.
      * exists cs, cs'. splits; auto. symmetry. apply (mapped_maps _ _ _ F). exact A5.
Qed.
Lemma level_total left right : injective pairing -> (forall el, In el left \/ In el right -> getElement m el <> None) -> levelPairs m d pairing left right <> None.
Proof.
  intros I HE. unfold levelPairs. destruct (findLeftCandidates m d pairing left) as [cand|] eqn:Ec.
  - apply (bounding_total m d W Hd); [auto|]. intros el e l x s Hel Ee Ex.
    destruct (slot_coords m d W Hd el e l x Ee Ex) as (nodes & cs & En & F & CO & _ & _). rewrite En, (coords_loop _ _ _ F). destruct (kfind (set_of ([] ++ cs)) cand); [|discriminate].
    rewrite <- (part_of_get m el e d l Ee), Ex. discriminate.
  - exfalso. eapply candidates_total; [exact I| |exact Ec]. auto.
Qed.
End Level.

Lemma node_pairs_spec : exists np, nodePairs m pairing = Some np /\ forall a b, In (a, b) np <-> identified m pairing 0 a b.
Proof.
  unfold nodePairs. destruct V as [_ V2].
  assert (G : forall l acc, incl l pairing -> exists np, for_each l (fun '(a, b) acc => x <- nodeIndex m a; y <- nodeIndex m b; Some (acc ++ [(x, y)])) acc = Some np /\
     forall a b, In (a, b) np <-> In (a, b) acc \/ exists c c', In (c, c') l /\ nth_error (coordinates m) c = Some (Some a) /\ nth_error (coordinates m) c' = Some (Some b)).
  { induction l as [|[c c'] l IH]; intros acc I; cbn [for_each].
    - exists acc. split; [reflexivity|]. intros. split; [auto|intros [?|(? & ? & [] & _)]; assumption].
    - destruct (V2 c c') as [(n & en & E1 & _) (n' & en' & E2 & _)]; [apply I; left; reflexivity|]. unfold nodeIndex at 1. rewrite E1. unfold nodeIndex at 1. rewrite E2.
      destruct (IH (acc ++ [(n, n')])) as (np & A & B); [intros y Hy; apply I; right; exact Hy|]. exists np. split; [exact A|]. intros a b. rewrite B, in_app_iff. cbn [In]. split.
      + intros [[Q|[Q|[]]]|(k & k' & Q & Q')]; [auto|injection Q as <- <-; right; exists c, c'; auto|right; exists k, k'; auto].
      + intros [Q|(k & k' & [Q|Q] & Q1 & Q2)]; [auto|injection Q as <- <-; left; right; left; congruence|right; exists k, k'; auto]. }
  destruct (G pairing [] (incl_refl _)) as (np & A & B). exists np. split; [exact A|]. intros a b. rewrite B. cbn [In identified]. tauto.
Qed.
End Plan.

Lemma connected_closure pairs (R : nat -> nat -> Prop) : (forall a b, In (a, b) pairs <-> R a b) -> forall a b, connected pairs a b <-> clos_refl_sym_trans nat R a b.
Proof.
  intros H a b. split.
  - induction 1; [apply rst_step, H; assumption|apply rst_refl|apply rst_sym; assumption|eapply rst_trans; eassumption].
  - induction 1; [apply conn_pair, H; assumption|apply conn_refl|apply conn_sym; assumption|eapply conn_trans; eassumption].
Qed.

(** What the groups of one level must be *)
Definition groups_for (R : nat -> nat -> Prop) (gs : list (list nat)) : Prop :=
  NoDup (List.concat gs) /\ (forall g, In g gs -> 2 <= length g /\ StronglySorted lt g) /\
  forall a b, a <> b -> ((exists g, In g gs /\ In a g /\ In b g) <-> R a b).

Lemma loop_collect {St} (f : nat -> option St) : forall n start acc, (forall i, start <= i < start + n -> f i <> None) ->
  exists r, for_from start n (fun i acc => y <- f i; Some (acc ++ [y])) acc = Some (acc ++ r) /\ length r = n /\ forall i, i < n -> nth_error r i = f (start + i).
Proof.
  induction n as [|n IH]; intros start acc H; cbn [for_from].
  - exists []. rewrite app_nil_r. splits; [reflexivity..|]. intros; lia.
  - destruct (f start) as [y|] eqn:E; [|exfalso; apply (H start); [lia|exact E]]. destruct (IH (S start) (acc ++ [y])) as (r & A & B & D); [intros; apply H; lia|].
    exists (y :: r). rewrite A, <- app_assoc. splits; [reflexivity|cbn; lia|]. intros [|i] Hi; cbn [nth_error]; [rewrite Nat.add_0_r; auto|]. rewrite D by lia. f_equal. lia.
Qed.

Lemma plan_ok m pairing : consistent m -> whole m -> proper_elements m -> shared m -> valid_pairing m pairing -> injective pairing ->
  exists k, forall fuel, k < fuel -> exists merges, computeMergePlan fuel m pairing = Some merges /\ length merges = length (meshEntities m) /\
    forall d gs, nth_error merges d = Some gs -> groups_for (connects m pairing d) gs.
Proof.
  intros C W PE SH V I. destruct pairing as [|p0 rest] eqn:Epair.
  - exists 0. intros fuel _. exists (repeat [] (length (meshEntities m))). splits; [reflexivity|apply repeat_length|]. intros d gs H.
    apply nth_error_In, repeat_spec in H. subst gs. unfold groups_for. splits; [constructor|intros ? []|]. intros a b N. split; [intros (g & [] & _)|]. intros Q. exfalso. apply N.
    clear N. induction Q as [a b Q| | |]; try congruence. exfalso. destruct d; cbn in Q; [destruct Q as (? & ? & [] & _)|].
    destruct Q as (el & l & el' & l' & cs & cs' & A1 & A2 & A3 & A4 & [A5 A6]).
    assert (cs = []) by (destruct cs as [|c cs]; [reflexivity|destruct (A5 c (or_introl eq_refl)) as (? & [])]). subst.
    unfold part_of in A1. destruct (nth_error (elementsList m) el) as [e|] eqn:Ee; [|discriminate].
    destruct (Nat.lt_ge_cases (S d) (length (meshEntities m))) as [Hd|Hd].
    + destruct (slot_nonempty m W (S d) ltac:(lia) el l a [] ) as (c & n & [] & _); [unfold part_of; rewrite Ee; exact A1|exact A3].
    + destruct (c_exists m C (S d) el l a) as (en & F); [unfold part_of; rewrite Ee; exact A1|]. unfold links_of in F.
      rewrite (proj2 (nth_error_None _ _) Hd) in F. discriminate.
  - rewrite <- Epair in *. pose proof V as V'. destruct V as [VS V2].
    destruct (node_pairs_spec m pairing V') as (np & Enp & Hnp).
    destruct (adjacent_spec m pairing fst C) as (left & El & HL); [intros [c c'] Hp; apply (V2 c c' Hp)|].
    destruct (adjacent_spec m pairing snd C) as (right & Er & HR); [intros [c c'] Hp; apply (V2 c c' Hp)|].
    assert (HE : forall el, In el left \/ In el right -> getElement m el <> None).
    { intros el [H|H]; [apply HL in H|apply HR in H]; destruct H as (p & l & _ & H); unfold coord_of in H; unfold getElement; destruct (nth_error (elementsList m) el); congruence. }
    assert (Hdim : 1 <= length (meshEntities m)).
    { destruct (V2 (fst p0) (snd p0)) as [(n & en & _ & F) _]; [rewrite Epair; left; destruct p0; reflexivity|]. unfold links_of in F. destruct (meshEntities m); [discriminate|cbn; lia]. }
    assert (K : exists k, depth (length np) <= k /\ forall d ps, 1 <= d < length (meshEntities m) -> levelPairs m d pairing left right = Some ps -> depth (length ps) <= k).
    { set (kf := fun d => match levelPairs m d pairing left right with Some ps => depth (length ps) | None => 0 end).
      exists (depth (length np) + list_sum (map kf (seq 0 (length (meshEntities m))))). split; [lia|]. intros d ps Hd E.
      assert (Q : kf d <= list_sum (map kf (seq 0 (length (meshEntities m))))).
      { assert (Hin : In d (seq 0 (length (meshEntities m)))) by (apply in_seq; lia). clear -Hin. induction (seq 0 (length (meshEntities m))) as [|x r IH]; [destruct Hin|].
        change (list_sum (map kf (x :: r))) with (kf x + list_sum (map kf r)). destruct Hin as [->|Hin]; [lia|]. specialize (IH Hin). lia. }
      unfold kf at 1 in Q. rewrite E in Q. lia. }
    destruct K as (k & K0 & K1). exists k. intros fuel Hf. unfold computeMergePlan. rewrite Epair, <- Epair. rewrite Enp.
    destruct (groupMerges_ok np fuel) as (g0 & Eg0 & G0); [lia|]. rewrite Eg0, El, Er.
    set (f := fun d => ps <- levelPairs m d pairing left right; groupMerges fuel ps).
    assert (FX : for_from 1 (length (meshEntities m) - 1) (fun d merges => ps <- levelPairs m d pairing left right; g <- groupMerges fuel ps; Some (merges ++ [g])) [g0]
       = for_from 1 (length (meshEntities m) - 1) (fun i acc => y <- f i; Some (acc ++ [y])) [g0]).
    { enough (Q : forall n st acc, for_from st n (fun d merges => ps <- levelPairs m d pairing left right; g <- groupMerges fuel ps; Some (merges ++ [g])) acc
         = for_from st n (fun i acc => y <- f i; Some (acc ++ [y])) acc) by apply Q.
      induction n as [|n IH]; intros st acc; cbn [for_from]; [reflexivity|]. unfold f at 1.
      destruct (levelPairs m st pairing left right) as [ps|]; [|reflexivity]. destruct (groupMerges fuel ps); [apply IH|reflexivity]. }
    rewrite FX.
    assert (FS : forall d, 1 <= d < length (meshEntities m) -> exists ps gs, levelPairs m d pairing left right = Some ps /\ f d = Some gs /\ groups_for (connects m pairing d) gs).
    { intros d Hd. destruct (levelPairs m d pairing left right) as [ps|] eqn:Ep; [|exfalso; exact (level_total m pairing W PE V' d Hd left right I HE Ep)].
      destruct (groupMerges_ok ps fuel) as (gs & Egs & G1 & G2 & G3); [specialize (K1 d ps Hd Ep); lia|]. exists ps, gs. unfold f. rewrite Ep. splits; auto.
      unfold groups_for. splits; auto. intros a b N. rewrite (G3 a b N). apply connected_closure. intros x y. destruct (level_spec m pairing W V' d Hd left right ps HL HR Ep) as [S1 S2]. split; [apply S1|apply (S2 SH I)]. }
    destruct (loop_collect f (length (meshEntities m) - 1) 1 [g0]) as (r & Er2 & Lr & Hr).
    { intros i Hi. destruct (FS i) as (ps & gs & _ & E & _); [lia|]. congruence. }
    rewrite Er2. exists ([g0] ++ r). splits; [reflexivity|cbn; lia|]. intros [|d] gs H.
    + cbn in H. injection H as <-. destruct G0 as (G1 & G2 & G3). unfold groups_for. splits; auto. intros a b N. rewrite (G3 a b N). apply connected_closure. exact Hnp.
    + cbn [app nth_error] in H. assert (Hd : d < length r) by (apply nth_error_Some; congruence). rewrite Hr in H by lia.
      destruct (FS (S d)) as (ps & gs' & _ & E & G); [lia|]. cbn [Nat.add] in H. assert (gs = gs') by congruence. subst. exact G.
Qed.
