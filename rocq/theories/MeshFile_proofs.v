(** What outputMesh writes. *)
From Coq Require Import String Ascii List Arith Lia Bool Permutation Sorted.
From Verif Require Import Loop_model Loop_proofs StdMap_model StdMap_proofs PreMesh_model PreMesh_spec PreMesh_proofs MeshFile_model MeshFile_spec.
From Verif Require Submesh_model.
Import ListNotations.

Lemma fe_insert {A K} (ltb : K -> K -> bool) (P : A -> K -> Prop) (body : A -> list K -> option (list K)) l :
  (forall x s, In x l -> ssorted ltb s -> exists s', body x s = Some s' /\ ssorted ltb s' /\ forall q, In q s' <-> In q s \/ P x q) ->
  forall s, ssorted ltb s -> exists s', for_each l body s = Some s' /\ ssorted ltb s' /\ forall q, In q s' <-> In q s \/ exists x, In x l /\ P x q.
Proof.
  induction l as [|x l IH]; intros H s Hs; cbn [for_each].
  - exists s. split; [reflexivity|]. split; [exact Hs|]. intros q. split; [auto|]. intros [|(? & [] & _)]. assumption.
  - destruct (H x s (or_introl eq_refl) Hs) as (s1 & E & S1 & M1). rewrite E.
    destruct (IH (fun y t Hy => H y t (or_intror Hy)) s1 S1) as (s2 & E2 & S2 & M2). exists s2. split; [exact E2|]. split; [exact S2|].
    intros q. rewrite M2, M1. split.
    + intros [[Hq|Hq]|(y & Hy & Hq)]; [auto|right; exists x; split; [left; reflexivity|exact Hq]|right; exists y; split; [right; exact Hy|exact Hq]].
    + intros [Hq|(y & [<-|Hy] & Hq)]; [auto|auto|right; exists y; auto].
Qed.

Lemma fe_list {A B} (body : A -> list B -> option (list B)) (f : A -> list B) l : (forall x s, In x l -> body x s = Some (s ++ f x)) ->
  forall s, for_each l body s = Some (s ++ flat_map f l).
Proof.
  induction l as [|x l IH]; intros H s; cbn [for_each flat_map]; [rewrite app_nil_r; reflexivity|].
  rewrite (H x s (or_introl eq_refl)), IH by (intros y t Hy; apply H; right; exact Hy). rewrite app_assoc. reflexivity.
Qed.
Lemma loop_list {B} (body : nat -> list B -> option (list B)) (f : nat -> list B) n : (forall x s, x < n -> body x s = Some (s ++ f x)) ->
  forall s, for_loop n body s = Some (s ++ flat_map f (seq 0 n)).
Proof.
  intros H s. destruct (for_loop_inv (fun k t => t = s ++ flat_map f (seq 0 k)) body n s) as (t & E & ->); [cbn; rewrite app_nil_r; reflexivity| |exact E].
  intros k t Hk ->. rewrite (H k _ Hk). eexists. split; [reflexivity|]. rewrite seq_S, flat_map_app. cbn [flat_map]. rewrite app_nil_r, app_assoc. reflexivity.
Qed.

Section Writer.
Context {D : Type} (ltb : D -> D -> bool) (ST : strict_total ltb).
Context (geometry : nat -> option (list (list nat) * list (nat * nat))) (i : input D) (dim n : nat) (R : ready geometry i dim n).
Context (Hdim : 1 <= dim).
Local Notation m := (theMesh i).
Local Notation E := (length (elementsList (theMesh i))).
Local Notation llt := (lex_ltb ltb).

Lemma part_lt d el l x : part_of m d el l = Some x -> el < E.
Proof. unfold part_of. intros H. destruct (nth_error (elementsList m) el) eqn:X; [|discriminate]. apply nth_error_Some. congruence. Qed.
Lemma owner_ok el : el < E -> exists p, nth_error (partitions i) el = Some p /\ p < n.
Proof.
  intros H. destruct (r_partitions _ _ _ _ R) as (L & B). destruct (nth_error (partitions i) el) as [p|] eqn:X.
  - exists p. split; [reflexivity|]. apply B. eapply nth_error_In. exact X.
  - apply nth_error_None in X. lia.
Qed.
Lemma owner_lt el p : nth_error (partitions i) el = Some p -> el < E.
Proof. intros H. rewrite <- (proj1 (r_partitions _ _ _ _ R)). apply nth_error_Some. congruence. Qed.
Lemma nodes_ok el : el < E -> exists nodes faces edges, nodesList i el = Some nodes /\ (forall j, nth_error nodes j = part_of m 0 el j) /\ NoDup nodes /\ nodes <> [] /\
  geometry (length nodes) = Some (faces, edges) /\ (forall l, part_of m (dim - 1) el l <> None <-> l < length faces) /\
  (dim = 3 -> forall l, part_of m 1 el l <> None <-> l < length edges) /\
  (forall f v, In f faces -> In v f -> v < length nodes) /\ (forall a b, In (a, b) edges -> a < length nodes /\ b < length nodes) /\
  exists e, nth_error (elementsList m) el = Some e /\ nth_error (incidenceLists e) 0 = Some nodes.
Proof.
  intros H. destruct (nth_error (elementsList m) el) as [e|] eqn:X; [|apply nth_error_None in X; lia].
  destruct (r_geometry _ _ _ _ R el e X) as (L & nodes & faces & edges & A1 & A0 & A2 & A3 & A4 & A5 & A6).
  exists nodes, faces, edges. assert (P : forall j, nth_error nodes j = part_of m 0 el j) by (intros j; unfold part_of; rewrite X, A1; reflexivity).
  split; [unfold nodesList, getElement; rewrite X; exact A1|]. split; [exact P|]. split.
  { apply NoDup_nth_error. intros a b Ha Hab. rewrite !P in Hab. destruct (part_of m 0 el a) as [v|] eqn:Y.
    - apply (r_distinct _ _ _ _ R el a b v Y). congruence.
    - exfalso. rewrite <- P in Y. apply nth_error_None in Y. lia. }
  split; [exact A0|]. split; [exact A2|]. split; [exact A3|]. split; [exact A4|]. split; [exact A5|]. split; [exact A6|]. exists e. auto.
Qed.
Lemma links_ok d el l x : part_of m d el l = Some x -> exists en, links_of m d x = Some en /\ NoDup en /\ forall el' l', In (el', l') en <-> part_of m d el' l' = Some x.
Proof.
  intros H. destruct (c_exists _ (r_consistent _ _ _ _ R) d el l x H) as (en & X). exists en. split; [exact X|]. exact (c_links _ (r_consistent _ _ _ _ R) d x en X).
Qed.

(** the partitions of the elements that touch [el] *)
Definition near (el q : nat) : Prop := exists other, nth_error (partitions i) other = Some q /\ touch i el other.
Lemma insertNeighbours_ok except el s : el < E -> ssorted Nat.ltb s -> exists s', insertNeighbours i except el s = Some s' /\ ssorted Nat.ltb s' /\
  forall q, In q s' <-> In q s \/ (except <> Some q /\ near el q).
Proof.
  intros He Hs. destruct (nodes_ok el He) as (nodes & _ & _ & EN & PN & _). unfold insertNeighbours. rewrite EN.
  destruct (fe_insert Nat.ltb (fun v q => except <> Some q /\ exists other k, nth_error (partitions i) other = Some q /\ part_of m 0 other k = Some v)
    (fun otherNode s => others <- linksOf i otherNode; for_each others (fun '(otherElement, _) s => q <- nth_error (partitions i) otherElement;
      Some (match except with Some p => if q =? p then s else sinsert Nat.ltb q s | None => sinsert Nat.ltb q s end)) s) nodes) with (s := s) as (s' & X & S' & M).
  - intros v t Hv Ht. apply In_nth_error in Hv as (j & Hj). rewrite PN in Hj. destruct (links_ok 0 el j v Hj) as (en & L & ND & M).
    unfold linksOf. rewrite getEntity_links, L.
    destruct (fe_insert Nat.ltb (fun (p : nat * nat) q => except <> Some q /\ nth_error (partitions i) (fst p) = Some q)
      (fun '(otherElement, _) s => q <- nth_error (partitions i) otherElement;
        Some (match except with Some p => if q =? p then s else sinsert Nat.ltb q s | None => sinsert Nat.ltb q s end)) en) with (s := t) as (t' & X & S' & M').
    + intros (other, k) u Ho Hu. apply M in Ho. destruct (owner_ok other (part_lt _ _ _ _ Ho)) as (q & Q & _). rewrite Q. cbn [fst].
      assert (INS : exists s', Some (sinsert Nat.ltb q u) = Some s' /\ ssorted Nat.ltb s' /\ forall q', In q' s' <-> In q' u \/ q = q').
      { eexists. split; [reflexivity|]. split; [apply sinsert_sorted; [exact nat_strict_total|exact Hu]|]. intros q'. rewrite sinsert_in by exact nat_strict_total. intuition congruence. }
      destruct except as [p|]; [destruct (Nat.eqb_spec q p) as [->|N]|].
      * exists u. split; [reflexivity|]. split; [exact Hu|]. intros q'. rewrite Q. intuition congruence.
      * destruct INS as (s1 & X1 & S1 & M1). exists s1. split; [exact X1|]. split; [exact S1|]. intros q'. rewrite M1, Q. intuition congruence.
      * destruct INS as (s1 & X1 & S1 & M1). exists s1. split; [exact X1|]. split; [exact S1|]. intros q'. rewrite M1, Q. intuition congruence.
    + exact Ht.
    + exists t'. split; [exact X|]. split; [exact S'|]. intros q. rewrite M'. split; (intros [?|H]; [auto|right]).
      * destruct H as ((other, k) & Ho & N & Q). apply M in Ho. split; [exact N|]. exists other, k. auto.
      * destruct H as (N & other & k & Q & Ho). exists (other, k). split; [apply M; exact Ho|]. auto.
  - exact Hs.
  - exists s'. split; [exact X|]. split; [exact S'|]. intros q. rewrite M. split; (intros [?|H]; [auto|right]).
    + destruct H as (v & Hv & N & other & k & Q & Ho). apply In_nth_error in Hv as (j & Hj). rewrite PN in Hj. split; [exact N|]. exists other. split; [exact Q|]. exists v, j, k. auto.
    + destruct H as (N & other & Q & v & j & k & Hj & Ho). rewrite <- PN in Hj. apply nth_error_In in Hj. exists v. split; [exact Hj|]. split; [exact N|]. exists other, k. auto.
Qed.

Lemma seen_owner el p : nth_error (partitions i) el = Some p -> seen i p el.
Proof. intros H. exists el. split; [exact H|left; reflexivity]. Qed.
Lemma seen_lt el p : seen i p el -> el < E.
Proof. intros (mine & O & [->|(v & j & k & H & _)]); [eapply owner_lt; exact O|eapply part_lt; exact H]. Qed.
Lemma seen_near el p q : nth_error (partitions i) el = Some p -> (seen i q el <-> q = p \/ near el q).
Proof.
  intros H. split.
  - intros (mine & O & [->|T]); [left; unfold owner in O; congruence|right; exists mine; auto].
  - intros [->|(other & O & T)]; [apply seen_owner, H|exists other; auto].
Qed.
Lemma seen_n el q : seen i q el -> q < n.
Proof. intros (mine & O & _). destruct (owner_ok mine) as (p & P & L); [eapply owner_lt; exact O|]. unfold owner in O. rewrite O in P. injection P as <-. exact L. Qed.

(** Nodes *)
Local Notation N := (length (nth 0 (meshEntities (theMesh i)) [])).
Lemma links_of_0 v : v < N -> exists en, links_of m 0 v = Some en.
Proof.
  intros H. unfold links_of. destruct (meshEntities m) as [|es r] eqn:X; [cbn in H; lia|]. cbn in *.
  destruct (nth_error es v) eqn:Y; [eauto|apply nth_error_None in Y; lia].
Qed.
Lemma part_of_0_lt el j v : part_of m 0 el j = Some v -> v < N.
Proof.
  intros H. destruct (links_ok 0 el j v H) as (en & L & _). unfold links_of in L. destruct (meshEntities m) as [|es r]; [discriminate|].
  cbn in *. apply nth_error_Some. congruence.
Qed.
Lemma getNumberOf_ok d : d < dim -> getNumberOf i d = Some (length (nth d (meshEntities m) [])).
Proof.
  intros H. unfold getNumberOf. destruct (nth_error (meshEntities m) d) as [es|] eqn:X; [|apply nth_error_None in X; rewrite (r_dim _ _ _ _ R) in X; lia].
  rewrite (nth_error_nth _ _ [] X). reflexivity.
Qed.
Lemma nodePartitions_ok v : v < N -> exists s, nodePartitions i v = Some s /\ ssorted Nat.ltb s /\
  forall q, In q s <-> exists el j, part_of m 0 el j = Some v /\ seen i q el.
Proof.
  intros Hv. destruct (links_of_0 v Hv) as (en & L). destruct (c_links _ (r_consistent _ _ _ _ R) 0 v en L) as (_ & M).
  unfold nodePartitions, linksOf. rewrite getEntity_links, L.
  destruct (fe_insert Nat.ltb (fun (p : nat * nat) q => seen i q (fst p))
     (fun '(el, _) s => p <- nth_error (partitions i) el; insertNeighbours i (Some p) el (sinsert Nat.ltb p s)) en) with (s := @nil nat) as (s & X & S & M').
  - intros (el, j) s Hin Hs. apply M in Hin. pose proof (part_lt _ _ _ _ Hin) as Hel. destruct (owner_ok el Hel) as (p & P & _). rewrite P. cbn [fst].
    destruct (insertNeighbours_ok (Some p) el (sinsert Nat.ltb p s) Hel) as (s' & X & S & M'); [apply sinsert_sorted; [exact nat_strict_total|exact Hs]|].
    exists s'. split; [exact X|]. split; [exact S|]. intros q. rewrite M', sinsert_in, (seen_near el p q P) by exact nat_strict_total.
    destruct (Nat.eq_dec p q) as [->|NE]; [intuition|]. intuition congruence.
  - constructor.
  - exists s. split; [exact X|]. split; [exact S|]. intros q. rewrite M'. split.
    + intros [[]|((el, j) & Hin & Hq)]. apply M in Hin. exists el, j. auto.
    + intros (el & j & Hin & Hq). right. exists (el, j). split; [apply M; exact Hin|exact Hq].
Qed.
Lemma value_ok el j v : part_of m 0 el j = Some v -> exists c, getCoordinate i el j = Some c /\ value_of i el j = Some c /\ length c = dim.
Proof.
  intros H. pose proof (c_coords _ (r_consistent _ _ _ _ R) el j) as C. rewrite H in C. destruct (coord_of m el j) as [c|] eqn:X; [|destruct C].
  destruct (r_values _ _ _ _ R el j c X) as (x & Y & L). exists x. unfold getCoordinate, value_of, getElement. rewrite X. split; [|split; [exact Y|exact L]].
  unfold coord_of in X. destruct (nth_error (elementsList m) el); [|discriminate]. unfold getCoordinateIndex. rewrite X. exact Y.
Qed.
Lemma value_same el j : getCoordinate i el j = value_of i el j.
Proof. unfold getCoordinate, value_of, coord_of, getElement, getCoordinateIndex. destruct (nth_error (elementsList m) el); reflexivity. Qed.
Lemma nodeCoordinates_ok v : v < N -> exists s, nodeCoordinates ltb i v = Some s /\ ssorted llt s /\
  forall c, In c s <-> exists el j, part_of m 0 el j = Some v /\ value_of i el j = Some c.
Proof.
  intros Hv. destruct (links_of_0 v Hv) as (en & L). destruct (c_links _ (r_consistent _ _ _ _ R) 0 v en L) as (_ & M).
  unfold nodeCoordinates, linksOf. rewrite getEntity_links, L.
  destruct (fe_insert llt (fun (p : nat * nat) c => value_of i (fst p) (snd p) = Some c)
     (fun '(el, l) s => c <- getCoordinate i el l; Some (sinsert (lex_ltb ltb) c s)) en) with (s := @nil (list D)) as (s & X & S & M').
  - intros (el, j) s Hin Hs. apply M in Hin. destruct (value_ok el j v Hin) as (c & X & Y & _). rewrite X. cbn [fst snd]. rewrite Y.
    eexists. split; [reflexivity|]. split; [apply sinsert_sorted; [apply lex_strict_total; exact ST|exact Hs]|]. intros q. rewrite sinsert_in by (apply lex_strict_total; exact ST). intuition congruence.
  - constructor.
  - exists s. split; [exact X|]. split; [exact S|]. intros c. rewrite M'. split.
    + intros [[]|((el, j) & Hin & Hq)]. apply M in Hin. exists el, j. auto.
    + intros (el & j & Hin & Hq). right. exists (el, j). split; [apply M; exact Hin|exact Hq].
Qed.
Lemma distance_ok s c : In c s -> nth_error s (distance ltb s c) = Some c.
Proof.
  induction s as [|y r IH]; intros H; [destruct H|]. cbn [distance]. destruct (llt c y) eqn:A.
  - destruct H as [->|H]; [rewrite (st_irrefl _ (lex_strict_total _ ST)) in A; discriminate|]. cbn. apply IH, H.
  - destruct (llt y c) eqn:B.
    + destruct H as [->|H]; [rewrite (st_irrefl _ (lex_strict_total _ ST)) in B; discriminate|]. cbn. apply IH, H.
    + cbn. f_equal. symmetry. apply (st_total _ (lex_strict_total _ ST)); assumption.
Qed.
Lemma getElementIndex_ok en el j : In (el, j) en -> (forall j', In (el, j') en -> j' = j) -> exists k, getElementIndex en el = Some k /\ nth_error en k = Some (el, j).
Proof.
  induction en as [|(x, l) r IH]; intros H U; [destruct H|]. cbn [getElementIndex]. destruct (Nat.eqb_spec x el) as [->|NE].
  - exists 0. split; [reflexivity|]. cbn. rewrite (U l (or_introl eq_refl)). reflexivity.
  - destruct H as [[= -> ->]|H]; [congruence|]. destruct (IH H (fun j' Hj => U j' (or_intror Hj))) as (k & X & Y). exists (S k). rewrite X. split; [reflexivity|exact Y].
Qed.

(** Total versions of what is written *)
Definition pF v := match nodePartitions i v with Some s => s | None => [] end.
Definition cF v := match nodeCoordinates ltb i v with Some s => s | None => [] end.
Definition nF el := match nodesList i el with Some s => s | None => [] end.
Definition shF el := match nth_error (partitions i) el with Some p => match insertNeighbours i (Some p) el [] with Some s => s | None => [] end | None => [] end.
Definition ownF el := nth el (partitions i) 0.
Definition zF el := nth el (zoneIds i) 0.
Definition offF v el j := match value_of i el j with Some c => distance ltb (cF v) c | None => 0 end.
Definition pairsF el : list (nat * nat) := map (fun '(j, v) => (v, offF v el j)) (combine (seq 0 (length (nF el))) (nF el)).
Definition lF d x := match links_of m d x with Some en => en | None => [] end.
Definition epF d x := match for_each (lF d x) (fun '(el, _) s => insertNeighbours i None el s) [] with Some s => s | None => [] end.

Definition nodeTokens v : list (token D) := Int (length (pF v)) :: map Int (pF v) ++ [EndL; Int (length (cF v))] ++ flat_map (map Real) (cF v) ++ [EndL].
Definition pairTokens (p : nat * nat) : list (token D) := [Int (fst p); Int (snd p)].
Definition elementTokens el : list (token D) :=
  Int (length (pairsF el)) :: flat_map pairTokens (pairsF el) ++ [Int (ownF el); Int (length (shF el))] ++ map Int (shF el) ++ [EndL; Int (zF el); EndL].
Definition entityTokens d x : list (token D) :=
  Int (length (lF d x)) :: flat_map pairTokens (lF d x) ++ Int (length (epF d x)) :: map Int (epF d x) ++ [EndL].

Lemma pF_ok v : v < N -> nodePartitions i v = Some (pF v) /\ ssorted Nat.ltb (pF v) /\ forall q, In q (pF v) <-> exists el j, part_of m 0 el j = Some v /\ seen i q el.
Proof. intros H. unfold pF. destruct (nodePartitions_ok v H) as (s & -> & A & B). auto. Qed.
Lemma cF_ok v : v < N -> nodeCoordinates ltb i v = Some (cF v) /\ ssorted llt (cF v) /\ forall c, In c (cF v) <-> exists el j, part_of m 0 el j = Some v /\ value_of i el j = Some c.
Proof. intros H. unfold cF. destruct (nodeCoordinates_ok v H) as (s & -> & A & B). auto. Qed.
Lemma nF_ok el : el < E -> nodesList i el = Some (nF el) /\ (forall j, nth_error (nF el) j = part_of m 0 el j) /\ NoDup (nF el) /\ nF el <> [] /\ exists faces edges, 
  geometry (length (nF el)) = Some (faces, edges) /\ (forall l, part_of m (dim - 1) el l <> None <-> l < length faces) /\
  (dim = 3 -> forall l, part_of m 1 el l <> None <-> l < length edges) /\
  (forall f v, In f faces -> In v f -> v < length (nF el)) /\ (forall a b, In (a, b) edges -> a < length (nF el) /\ b < length (nF el)) /\
  exists e, nth_error (elementsList m) el = Some e /\ nth_error (incidenceLists e) 0 = Some (nF el).
Proof.
  intros H. destruct (nodes_ok el H) as (nodes & faces & edges & A & B & C & A0 & A1 & A2 & A3 & A4 & A5 & A6). unfold nF. rewrite A.
  split; [reflexivity|]. split; [exact B|]. split; [exact C|]. split; [exact A0|]. exists faces, edges. repeat (split; [assumption|]). exact A6.
Qed.
Lemma shF_ok el : el < E -> nth_error (partitions i) el = Some (ownF el) /\ ownF el < n /\ insertNeighbours i (Some (ownF el)) el [] = Some (shF el) /\ ssorted Nat.ltb (shF el) /\
  forall q, In q (shF el) <-> q <> ownF el /\ seen i q el.
Proof.
  intros H. destruct (owner_ok el H) as (p & P & L). unfold shF, ownF. rewrite P, (nth_error_nth _ _ 0 P).
  destruct (insertNeighbours_ok (Some p) el [] H) as (s & X & S & M); [constructor|]. rewrite X. split; [reflexivity|]. split; [exact L|]. split; [reflexivity|]. split; [exact S|].
  intros q. rewrite M, (seen_near el p q P). split.
  - intros [[]|(NE & Hq)]. split; [congruence|]. right. exact Hq.
  - intros (NE & [->|Hq]); [congruence|]. right. split; [congruence|exact Hq].
Qed.
Lemma offF_ok el j v : part_of m 0 el j = Some v -> nth_error (cF v) (offF v el j) = value_of i el j.
Proof.
  intros H. destruct (value_ok el j v H) as (c & X & Y & _). unfold offF. rewrite Y. apply distance_ok.
  apply (proj2 (proj2 (cF_ok v (part_of_0_lt _ _ _ H))) c). exists el, j. auto.
Qed.
Lemma pairsF_nth el j : nth_error (pairsF el) j = match nth_error (nF el) j with Some v => Some (v, offF v el j) | None => None end.
Proof.
  unfold pairsF. rewrite nth_error_map.
  assert (G : forall (l : list nat) k j, nth_error (combine (seq k (length l)) l) j = match nth_error l j with Some v => Some (k + j, v) | None => None end).
  { induction l as [|x l IH]; intros k [|j']; cbn; try reflexivity; [rewrite Nat.add_0_r; reflexivity|]. rewrite IH. destruct (nth_error l j'); [|reflexivity]. do 2 f_equal. lia. }
  rewrite G. destruct (nth_error (nF el) j); reflexivity.
Qed.
Lemma pairsF_length el : length (pairsF el) = length (nF el).
Proof. unfold pairsF. rewrite map_length, combine_length, seq_length. lia. Qed.
Lemma pairsF_fst el : map fst (pairsF el) = nF el.
Proof.
  apply nth_error_ext_le; [rewrite map_length; apply pairsF_length|]. intros j _. rewrite nth_error_map, pairsF_nth. destruct (nth_error (nF el) j); reflexivity.
Qed.

Lemma coordinateIndices_ok v : v < N -> exists en, links_of m 0 v = Some en /\ coordinateIndices ltb i v = Some (map (fun '(el, j) => offF v el j) en).
Proof.
  intros Hv. destruct (links_of_0 v Hv) as (en & L). destruct (c_links _ (r_consistent _ _ _ _ R) 0 v en L) as (_ & M).
  exists en. split; [exact L|]. unfold coordinateIndices, linksOf. rewrite getEntity_links, L. destruct (cF_ok v Hv) as (-> & _ & _).
  rewrite (fe_list _ (fun '(el, j) => [offF v el j])).
  - cbn [app]. f_equal. clear. induction en as [|(el, j) r IH]; [reflexivity|]. cbn. rewrite IH. reflexivity.
  - intros (el, j) s Hin. apply M in Hin. destruct (value_ok el j v Hin) as (c & X & Y & _). rewrite X. unfold offF. rewrite Y. reflexivity.
Qed.
Lemma writeElement_ok el out : el < E -> writeElement ltb i el out = Some (out ++ elementTokens el).
Proof.
  intros H. destruct (nF_ok el H) as (A & B & C & _). destruct (shF_ok el H) as (O & _ & SH & _). unfold writeElement. rewrite A.
  assert (P : for_each (nF el) (fun v acc => links <- linksOf i v; k <- getElementIndex links el; offsets <- coordinateIndices ltb i v; c <- nth_error offsets k; Some (acc ++ [Int v; Int c])) []
    = Some (flat_map pairTokens (pairsF el))).
  { rewrite (fe_list _ (fun v => flat_map (fun '(j, w) => if w =? v then [Int v; Int (offF v el j)] else []) (combine (seq 0 (length (nF el))) (nF el)))).
    - cbn [app]. f_equal. unfold pairsF.
      assert (G : forall (l : list nat) k, NoDup l -> flat_map (fun v => flat_map (fun '(j, w) => if w =? v then [@Int D v; Int (offF v el j)] else []) (combine (seq k (length l)) l)) l =
         flat_map pairTokens (map (fun '(j, v) => (v, offF v el j)) (combine (seq k (length l)) l))).
      { induction l as [|x l IH]; intros k ND; [reflexivity|]. inversion ND as [|? ? Nin ND']; subst. cbn [length seq combine flat_map map]. rewrite Nat.eqb_refl.
        rewrite <- (IH (S k) ND'). cbn [pairTokens fst snd app]. do 2 f_equal.
        assert (Z : forall (l' : list nat) k', ~ In x l' -> flat_map (fun '(j, w) => if w =? x then [@Int D x; Int (offF x el j)] else []) (combine (seq k' (length l')) l') = []).
        { induction l' as [|y l' IH']; intros k' Nx; [reflexivity|]. cbn. destruct (Nat.eqb_spec y x) as [->|_]; [exfalso; apply Nx; left; reflexivity|]. apply IH'. intros Hin. apply Nx. right. exact Hin. }
        rewrite (Z l (S k) Nin). cbn [app]. clear - Nin. revert Nin. generalize (combine (seq (S k) (length l)) l). intros c Nin.
        enough (Q : forall l', (forall y, In y l' -> y <> x) -> flat_map (fun v => (if x =? v then [@Int D v; Int (offF v el k)] else []) ++ flat_map (fun '(j, w) => if w =? v then [Int v; Int (offF v el j)] else []) c) l' = flat_map (fun v => flat_map (fun '(j, w) => if w =? v then [Int v; Int (offF v el j)] else []) c) l').
        { apply Q. intros y Hy ->. apply Nin, Hy. }
        induction l' as [|y l' IH']; intros Hy; [reflexivity|]. cbn [flat_map]. destruct (Nat.eqb_spec x y) as [->|_]; [exfalso; apply (Hy y (or_introl eq_refl)); reflexivity|].
        cbn [app]. f_equal. apply IH'. intros z Hz. apply Hy. right. exact Hz. }
      apply G, C.
    - intros v s Hv. apply In_nth_error in Hv as (j & Hj). pose proof Hj as Hj'. rewrite B in Hj. pose proof (part_of_0_lt _ _ _ Hj) as Hv.
      destruct (coordinateIndices_ok v Hv) as (en & L & CI). destruct (c_links _ (r_consistent _ _ _ _ R) 0 v en L) as (_ & M).
      unfold linksOf. rewrite getEntity_links, L, CI. destruct (getElementIndex_ok en el j) as (k & K1 & K2).
      + apply M, Hj.
      + intros j' Hj2. apply M in Hj2. apply (r_distinct _ _ _ _ R el j' j v); assumption.
      + rewrite K1, nth_error_map, K2. cbn [option_map]. do 2 f_equal.
        assert (G : forall (l : list nat) k0 j0, NoDup l -> nth_error l j0 = Some v -> flat_map (fun '(j, w) => if w =? v then [@Int D v; Int (offF v el j)] else []) (combine (seq k0 (length l)) l) = [Int v; Int (offF v el (k0 + j0))]).
        { induction l as [|x l IH]; intros k0 [|j0] ND Hn; try discriminate; inversion ND as [|? ? Nin ND']; subst; cbn [length seq combine flat_map].
          - cbn in Hn. injection Hn as ->. rewrite Nat.eqb_refl, Nat.add_0_r. cbn [app]. do 2 f_equal.
            assert (Z : forall (l' : list nat) k', ~ In v l' -> flat_map (fun '(j, w) => if w =? v then [@Int D v; Int (offF v el j)] else []) (combine (seq k' (length l')) l') = []).
            { induction l' as [|y l' IH']; intros k' Nx; [reflexivity|]. cbn. destruct (Nat.eqb_spec y v) as [->|_]; [exfalso; apply Nx; left; reflexivity|]. apply IH'. intros Hin. apply Nx. right. exact Hin. }
            apply Z, Nin.
          - cbn in Hn. destruct (Nat.eqb_spec x v) as [->|_]; [exfalso; apply Nin; eapply nth_error_In; exact Hn|]. cbn [app]. rewrite (IH (S k0) j0 ND' Hn). do 4 f_equal. lia. }
        symmetry. apply (G (nF el) 0 j C Hj'). }
  rewrite P, O, SH. destruct (nth_error (zoneIds i) el) as [z|] eqn:Z.
  - unfold elementTokens, zF. rewrite (nth_error_nth _ _ 0 Z), pairsF_length. reflexivity.
  - exfalso. apply nth_error_None in Z. rewrite (proj1 (r_zones _ _ _ _ R)) in Z. lia.
Qed.

(** the number of nodes that process [q] has *)
Definition countF k q := length (filter (fun v => existsb (Nat.eqb q) (pF v)) (seq 0 k)).
Lemma count_insert (s : list nat) : NoDup s -> forall data, (forall q, In q s -> q < length data) -> exists data', for_each s (fun p data => x <- nth_error data p; write data p (S x)) data = Some data' /\
  length data' = length data /\ forall q, nth_error data' q = option_map (fun x => x + (if existsb (Nat.eqb q) s then 1 else 0)) (nth_error data q).
Proof.
  induction s as [|p s IH]; intros ND data H; cbn [for_each].
  - exists data. split; [reflexivity|]. split; [reflexivity|]. intros q. cbn. destruct (nth_error data q); cbn; [f_equal; lia|reflexivity].
  - inversion ND as [|? ? Nin ND']; subst. destruct (nth_error data p) as [x|] eqn:X; [|apply nth_error_None in X; specialize (H p (or_introl eq_refl)); lia].
    destruct (write_ok data p (S x)) as (d1 & E1 & L1 & N1); [apply H; left; reflexivity|]. rewrite E1.
    destruct (IH ND' d1) as (d2 & E2 & L2 & N2); [intros q Hq; rewrite L1; apply H; right; exact Hq|]. exists d2. split; [exact E2|]. split; [congruence|].
    intros q. rewrite N2, N1. cbn [existsb]. destruct (Nat.eqb_spec q p) as [->|NE]; cbn [orb]; [|reflexivity].
    rewrite X. cbn. f_equal. replace (existsb (Nat.eqb p) s) with false; [lia|]. symmetry. apply Bool.not_true_is_false. intros C. apply existsb_exists in C as (y & Hy & Hpy). apply Nat.eqb_eq in Hpy. subst y. contradiction.
Qed.
Lemma writeNodes_ok : for_loop N (writeNode ltb i) ([], repeat 0 n) = Some (flat_map nodeTokens (seq 0 N), map (countF N) (seq 0 n)).
Proof.
  destruct (for_loop_inv (fun k (st : list (token D) * list nat) => fst st = flat_map nodeTokens (seq 0 k) /\ length (snd st) = n /\ forall q, q < n -> nth_error (snd st) q = Some (countF k q))
     (writeNode ltb i) N ([], repeat 0 n)) as ((out, data) & X & A & B & C).
  - cbn. split; [reflexivity|]. split; [apply repeat_length|]. intros q Hq. rewrite nth_error_repeat'. apply Nat.ltb_lt in Hq. rewrite Hq. reflexivity.
  - intros k (out, data) Hk (A & B & C). cbn [fst snd] in *. unfold writeNode. destruct (pF_ok k Hk) as (P1 & P2 & P3). destruct (cF_ok k Hk) as (C1 & _ & _). rewrite P1, C1.
    destruct (count_insert (pF k) (ssorted_nodup _ nat_strict_total _ P2) data) as (d' & X & L & M).
    { intros q Hq. apply P3 in Hq as (el & j & _ & S). rewrite B. eapply seen_n. exact S. }
    rewrite X. eexists. split; [reflexivity|]. cbn [fst snd]. split; [|split; [congruence|]].
    + rewrite A, seq_S, flat_map_app. cbn [flat_map]. rewrite app_nil_r. reflexivity.
    + intros q Hq. rewrite M, (C q Hq). cbn [option_map]. unfold countF. rewrite seq_S, filter_app, app_length. cbn [filter plus]. destruct (existsb (Nat.eqb q) (pF k)); reflexivity.
  - rewrite X. cbn [fst snd] in *. rewrite A. do 2 f_equal. apply nth_error_ext_le; [rewrite map_length, seq_length; exact B|]. intros q Hq. rewrite B in Hq. rewrite (C q Hq). symmetry. apply nth_error_map_seq, Hq.
Qed.

Lemma epF_ok d x : links_of m d x <> None -> links_of m d x = Some (lF d x) /\ NoDup (lF d x) /\ (forall el l, In (el, l) (lF d x) <-> part_of m d el l = Some x) /\
  for_each (lF d x) (fun '(el, _) s => insertNeighbours i None el s) [] = Some (epF d x) /\ ssorted Nat.ltb (epF d x) /\
  forall q, In q (epF d x) <-> exists el l, part_of m d el l = Some x /\ seen i q el.
Proof.
  intros H. destruct (links_of m d x) as [en|] eqn:L; [|congruence]. destruct (c_links _ (r_consistent _ _ _ _ R) d x en L) as (ND & M).
  assert (L' : lF d x = en) by (unfold lF; rewrite L; reflexivity). rewrite L'. split; [reflexivity|]. split; [exact ND|]. split; [exact M|].
  unfold epF. rewrite L'.
  destruct (fe_insert Nat.ltb (fun (p : nat * nat) q => near (fst p) q) (fun '(el, _) s => insertNeighbours i None el s) en) with (s := @nil nat) as (s & X & S & M').
  - intros (el, l) s Hin Hs. apply M in Hin. destruct (insertNeighbours_ok None el s (part_lt _ _ _ _ Hin) Hs) as (s' & X & S & M'). exists s'. split; [exact X|]. split; [exact S|].
    intros q. rewrite M'. cbn [fst]. split; [intros [?|(_ & ?)]; auto|intros [?|?]; [auto|right; split; [discriminate|assumption]]].
  - constructor.
  - rewrite X. split; [reflexivity|]. split; [exact S|]. intros q. rewrite M'. split.
    + intros [[]|((el, l) & Hin & Hq)]. apply M in Hin. exists el, l. split; [exact Hin|]. destruct (owner_ok el (part_lt _ _ _ _ Hin)) as (p & P & _). apply (seen_near el p q P). right. exact Hq.
    + intros (el & l & Hin & Hq). right. exists (el, l). split; [apply M; exact Hin|]. cbn [fst]. destruct (owner_ok el (part_lt _ _ _ _ Hin)) as (p & P & _).
      destruct (proj1 (seen_near el p q P) Hq) as [Eq|Hn]; [rewrite Eq|exact Hn]. exists el. split; [exact P|].
      destruct (nF_ok el (part_lt _ _ _ _ Hin)) as (_ & B & _ & NE & _). destruct (nF el) as [|v r]; [congruence|]. exists v, 0, 0. rewrite <- (B 0). auto.
Qed.
Lemma writeEntity_ok d x out : links_of m d x <> None -> writeEntity i d x out = Some (out ++ entityTokens d x).
Proof.
  intros H. destruct (epF_ok d x H) as (L & _ & _ & X & _). unfold writeEntity. rewrite getEntity_links, L, X. unfold entityTokens.
  assert (P : forall l : list (nat * nat), flat_map (fun '(el, l) => [@Int D el; Int l]) l = flat_map pairTokens l) by (induction l as [|(a, b) r IH]; [reflexivity|]; cbn; rewrite IH; reflexivity).
  rewrite P. reflexivity.
Qed.
Lemma links_of_d d x : x < length (nth d (meshEntities m) []) -> links_of m d x <> None.
Proof.
  intros H. unfold links_of. destruct (nth_error (meshEntities m) d) as [es|] eqn:X.
  - rewrite (nth_error_nth _ _ [] X) in H. apply nth_error_Some in H. destruct (nth_error es x); congruence.
  - apply nth_error_None in X. rewrite nth_overflow in H by exact X. cbn in H. lia.
Qed.
Definition countD d := length (nth d (meshEntities m) []).
Fixpoint othersTokens d : list (token D) :=
  match d with 0 => [] | S d' => Word (codim (dim - d)) :: EndL :: flat_map (entityTokens d) (seq 0 (countD d)) ++ othersTokens d' end.
Lemma printOtherEntities_ok d : d < dim -> forall out, printOtherEntities i d out = Some (out ++ othersTokens d).
Proof.
  induction d as [|d IH]; intros H out; cbn [printOtherEntities othersTokens]; [rewrite app_nil_r; reflexivity|].
  rewrite (getNumberOf_ok (S d) H), (r_dim _ _ _ _ R). fold (countD (S d)).
  rewrite (loop_list _ (entityTokens (S d))) by (intros x s Hx; apply writeEntity_ok, links_of_d, Hx).
  rewrite IH by lia. rewrite <- !app_assoc. reflexivity.
Qed.
Fixpoint countTokens d : list (token D) := match d with 0 => [] | S d' => Int (countD d) :: countTokens d' end.
Lemma printOtherEntityCounts_ok d : d < dim -> printOtherEntityCounts i d = Some (countTokens d).
Proof.
  induction d as [|d IH]; intros H; cbn [printOtherEntityCounts countTokens]; [reflexivity|].
  rewrite (getNumberOf_ok (S d) H), IH by lia. reflexivity.
Qed.

Definition fileF : list (token D) :=
  [Word "mesh"%string; Int 2; EndL] ++ Int N :: Int E :: Int dim :: countTokens (dim - 1) ++ EndL :: Int n :: map Int (map (countF N) (seq 0 n)) ++ EndL ::
  Word "zones"%string :: EndL :: Int (length (zoneNames i)) :: EndL :: flat_map (fun z => [Word z; EndL]) (zoneNames i) ++
  Word "nodes"%string :: EndL :: flat_map nodeTokens (seq 0 N) ++ Word "elements"%string :: EndL :: flat_map elementTokens (seq 0 E) ++ othersTokens (dim - 1).
Lemma output_ok : outputMesh ltb i n = Some fileF.
Proof.
  unfold outputMesh. rewrite (r_dim _ _ _ _ R), (getNumberOf_ok 0) by lia. rewrite printOtherEntityCounts_ok by lia. rewrite writeNodes_ok.
  rewrite (loop_list _ elementTokens) by (intros x s Hx; apply writeElement_ok, Hx). rewrite printOtherEntities_ok by lia. reflexivity.
Qed.
End Writer.
