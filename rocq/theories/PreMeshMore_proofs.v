From Coq Require Import List Arith Bool Lia.
From Verif Require Import Loop_model Loop_proofs StdMap_model PreMesh_model PreShapes_model PreMesh_spec PreMesh_proofs PreMeshShare_proofs.
Import ListNotations.

(** ** removeUnusedEntities *)
Record removed_upto (n : nat) (f : nat -> nat -> nat) (m m' : mesh) : Prop := {
  ru_consistent : consistent m';
  ru_inj : forall d x y el l el' l', part_of m d el l = Some x -> part_of m d el' l' = Some y -> f d x = f d y -> x = y;
  ru_part : forall d el l, part_of m' d el l = option_map (f d) (part_of m d el l);
  ru_same : same_elements m m';
  ru_used : forall d y, d < n -> links_of m' d y <> Some [];
  ru_other : forall d y, n <= d -> links_of m' d y = links_of m d y;
  ru_coordinates : forall c k en, nth_error (coordinates m) c = Some (Some k) -> links_of m 0 k = Some en -> en <> [] -> nth_error (coordinates m') c = Some (Some (f 0 k)) }.

Lemma removed_ok n : forall m m', consistent m -> removeUnusedFrom m n = Some m' -> exists f, removed_upto n f m m'.
Proof.
  induction n as [|n IH]; intros m m' C H; cbn in H.
  - injection H as <-. exists (fun _ x => x). constructor; auto; try lia.
    + intros. destruct (part_of m d el l); reflexivity.
    + split; auto.
  - destruct (removeUnusedLevel m n) as [m1|] eqn:E; [|discriminate]. destruct (removeUnusedLevel_spec _ _ _ C E) as (f1 & R).
    destruct (IH m1 m' (rl_consistent _ _ _ _ R) H) as (f & F). exists (fun d x => f d (if d =? n then f1 x else x)). destruct R as [rl_consistent0 rl_inj0 rl_part0 rl_coord0 rl_shape0 rl_dim0 rl_elements0 rl_other0 rl_used0 rl_kept0 rl_coordinates0].
    destruct F as [ru_consistent0 ru_inj0 ru_part0 ru_same0 ru_used0 ru_other0 ru_coordinates0]. constructor.
    + assumption.
    + intros d x y el l el' l' Hx Hy E1. pose proof (rl_part0 d el l) as Q1. pose proof (rl_part0 d el' l') as Q2. rewrite Hx in Q1. rewrite Hy in Q2. cbn [option_map] in Q1, Q2.
      destruct (Nat.eqb_spec d n) as [->|N].
      * apply (rl_inj0 x y el l el' l' Hx Hy). eapply ru_inj0; eassumption.
      * eapply ru_inj0; eassumption.
    + intros d el l. rewrite ru_part0, rl_part0. destruct (part_of m d el l) as [x|]; cbn [option_map]; [|reflexivity]. destruct (d =? n); reflexivity.
    + destruct ru_same0. split; congruence.
    + intros d y Hd. destruct (Nat.eq_dec d n) as [->|]; [|apply ru_used0; lia]. rewrite ru_other0 by lia. apply rl_used0.
    + intros d y Hd. rewrite ru_other0 by lia. apply rl_other0. lia.
    + intros c k en Hc Hk N. destruct (Nat.eqb_spec 0 n) as [<-|N0].
      * rewrite (ru_coordinates0 c (f1 k) en); [reflexivity| |apply rl_kept0; assumption|exact N]. exact (rl_coordinates0 c k en Hc Hk N).
      * apply (ru_coordinates0 c k en); [|rewrite rl_other0 by exact N0; exact Hk|exact N]. pose proof (rl_coordinates0 c k en Hc Hk N) as Q.
        replace (n =? 0) with false in Q by (symmetry; apply Nat.eqb_neq; lia). exact Q.
Qed.

Lemma level_coordinates m d m' : d <> 0 -> removeUnusedLevel m d = Some m' -> coordinates m' = coordinates m /\ forall y, links_of m' 0 y = links_of m 0 y.
Proof.
  intros N H. unfold removeUnusedLevel in H. destruct (nth_error (meshEntities m) d) as [es|]; [|discriminate]. destruct (renumber es 0) as [rn kept].
  destruct (length kept =? length es); [injection H as <-; auto|]. destruct (write (meshEntities m) d kept) as [all|] eqn:W; [|discriminate]. destruct (for_each (elementsList m) _ []) as [els|]; [|discriminate].
  destruct d; [congruence|]. injection H as <-. split; [reflexivity|]. intros y. unfold links_of. cbn [meshEntities]. apply write_inv in W as (_ & _ & W). rewrite W. reflexivity.
Qed.
Lemma remove_returns n : forall m, consistent m -> sized m -> n <= length (meshEntities m) -> placed m -> exists m', removeUnusedFrom m n = Some m'.
Proof.
  induction n as [|n IH]; intros m C Z Hn P; cbn; [eauto|]. destruct (removeUnusedLevel_ok m n C Z Hn (fun _ => P)) as (m1 & E). rewrite E.
  destruct (removeUnusedLevel_sized m n m1 Z E) as [Z1 L1]. destruct (removeUnusedLevel_spec _ _ _ C E) as (f & R). destruct n as [|n]; [cbn; eauto|].
  apply IH; [exact (rl_consistent _ _ _ _ R)|exact Z1|rewrite L1; lia|]. destruct (level_coordinates m (S n) m1 ltac:(discriminate) E) as [A B].
  intros c o. rewrite A. intros Hc. destruct (P c o Hc) as (k & -> & Hk). exists k. rewrite B. auto.
Qed.

(** ** Deciding whether an element fits *)
Definition nodesf (m : mesh) (d el l : nat) : option (list nat) :=
  s <- shape_of m el; locals <- part s d l; for_each locals (fun k acc => n <- part_of m 0 el k; Some (acc ++ [n])) [].
Lemma nodesf_ok m d el l ns : nodes_of m d el l ns -> nodesf m d el l = Some ns.
Proof. intros (s & p & A & B & F). unfold nodesf. rewrite A, B. exact (each_forall2 _ _ _ F []). Qed.
Definition lookups {A} (l : list A) (ks : list nat) : option (list A) := for_each ks (fun k acc => n <- nth_error l k; Some (acc ++ [n])) [].
Definition inclb (a b : list nat) := forallb (fun x => mem x b) a.
Lemma inclb_spec a b : inclb a b = true <-> incl a b.
Proof. unfold inclb, incl. rewrite forallb_forall. split; intros H x Hx; apply mem_in, H, Hx. Qed.
Definition fitsb (m : mesh) (coords : list nat) : bool :=
  match findGeometry (length (meshEntities m)) (length coords), for_each coords (fun c acc => n <- nodeIndex m c; en <- links_of m 0 n; Some (acc ++ [n])) [] with
  | Some s, Some ns => nodupb ns &&
      forallb (fun d => match nth_error s d with None => true | Some ps =>
        forallb (fun i => match part s d i with None => true | Some locals => match lookups ns locals with None => true | Some mine =>
          forallb (fun el => match shape_of m el with None => true | Some t => match nth_error t d with None => true | Some qs =>
            forallb (fun l => match nodesf m d el l with None => true | Some theirs => negb (inclb mine theirs) || inclb theirs mine end) (seq 0 (length qs)) end end)
          (seq 0 (length (elementsList m))) end end) (seq 0 (length ps)) end) (seq 0 (length s))
  | _, _ => false
  end.
Lemma in_bound n i : i < n -> In i (seq 0 n). Proof. intros. apply in_seq. lia. Qed.
Lemma fitsb_sound m coords : fitsb m coords = true -> fits m coords.
Proof.
  unfold fitsb. destruct (findGeometry _ _) as [s|] eqn:Eg; [|discriminate].
  destruct (for_each coords _ []) as [ns|] eqn:En; [|discriminate]. intros H. apply andb_true_iff in H as [H1 H2]. exists s, ns. splits; [exact Eg| |apply nodupb_sound, H1|].
  - rewrite (for_each_ext _ (fun c acc => y <- (n <- nodeIndex m c; en <- links_of m 0 n; Some n); Some (acc ++ [y]))) in En
      by (intros c acc; destruct (nodeIndex m c) as [n|]; [destruct (links_of m 0 n)|]; reflexivity).
    apply fe_map_gen in En as (ys & -> & F). cbn [app]. clear -F. induction F as [|c n coords ys E F IH]; constructor; [|exact IH].
    unfold nodeIndex in E. destruct (nth_error (coordinates m) c) as [[k|]|]; try discriminate. destruct (links_of m 0 k) as [en|] eqn:El; [|discriminate]. injection E as <-. split; [reflexivity|congruence].
  - intros d i locals mine el l theirs Hd Ep F Ht I. rewrite forallb_forall in H2. pose proof Ep as Ep0. unfold part in Ep0. destruct (nth_error s d) as [ps|] eqn:Es; [|discriminate].
    assert (Hds : d < length s) by (apply nth_error_Some; congruence). specialize (H2 d (in_bound _ _ Hds)). rewrite Es, forallb_forall in H2.
    assert (Hi : i < length ps) by (apply nth_error_Some; congruence). specialize (H2 i (in_bound _ _ Hi)). rewrite Ep in H2.
    unfold lookups in H2. rewrite (each_forall2 _ _ _ F []) in H2. cbn [app] in H2. rewrite forallb_forall in H2. pose proof (nodesf_ok _ _ _ _ _ Ht) as Hf. destruct Ht as (t & q & A & B & _).
    assert (Hel : el < length (elementsList m)) by (apply nth_error_Some; unfold shape_of in A; destruct (nth_error (elementsList m) el); [discriminate|discriminate A]).
    specialize (H2 el (in_bound _ _ Hel)). rewrite A in H2. unfold part in B. destruct (nth_error t d) as [qs|]; [|discriminate]. rewrite forallb_forall in H2.
    assert (Hl : l < length qs) by (apply nth_error_Some; congruence). specialize (H2 l (in_bound _ _ Hl)). rewrite Hf in H2. apply orb_true_iff in H2 as [H2|H2]; [|apply inclb_spec, H2].
    apply inclb_spec in I. rewrite I in H2. discriminate.
Qed.

(** histories that only build *)
Fixpoint buildable (ops : list op) (m : mesh) : bool :=
  match ops with
  | [] => true
  | o :: r => match o with AddNode => true | AddCoordinate n => match links_of m 0 n with Some _ => true | None => false end | AddElement coords => fitsb m coords | _ => false end &&
      match perform o m with Some m' => buildable r m' | None => true end
  end.
Lemma buildable_built dim ops : forall m m', built dim m -> buildable ops m = true -> history ops m = Some m' -> built dim m'.
Proof.
  induction ops as [|o ops IH]; intros m m' B H E; cbn in E, H; [congruence|]. apply andb_true_iff in H as [H1 H2]. destruct (perform o m) as [m1|] eqn:Em; [|discriminate].
  eapply IH; [|exact H2|exact E]. destruct o; try discriminate.
  - eapply built_node; eassumption.
  - eapply built_coordinate; [exact B| |exact Em]. destruct (links_of m 0 node); [discriminate|discriminate H1].
  - eapply built_element; [exact B|apply fitsb_sound, H1|exact Em].
Qed.

(** ** What users see *)
Lemma built_sharing dim m d el l x el' l' x' ns ns' : 1 <= dim -> built dim m -> 1 <= d ->
  part_of m d el l = Some x -> part_of m d el' l' = Some x' -> nodes_of m d el l ns -> nodes_of m d el' l' ns' -> (x = x' <-> same_nodes ns ns').
Proof.
  intros Hdim B Hd Hx Hx' Hn Hn'. pose proof (built_complete dim m Hdim B) as G.
  assert (Hd2 : d < dim).
  { destruct (c_exists m (g_consistent _ _ _ _ G) d el l x Hx) as (en & E). rewrite <- (g_dim _ _ _ _ G). apply nth_error_Some. unfold links_of in E. destruct (nth_error (meshEntities m) d); congruence. }
  eapply (g_sharing _ _ _ _ G d); try eassumption. lia.
Qed.
Lemma built_fits dim m coords : 1 <= dim -> built dim m -> fits m coords -> exists m', perform (AddElement coords) m = Some m' /\ built dim m' /\
  exists s, findGeometry dim (length coords) = Some s /\ added m coords s m'.
Proof.
  intros Hdim B F. pose proof (built_complete dim m Hdim B) as G. destruct (addElement_complete dim m coords Hdim G F) as (s & m' & A1 & A2 & A3 & A4).
  assert (P : perform (AddElement coords) m = Some m') by (cbn; rewrite (g_dim _ _ _ _ G), A1; exact A2).
  exists m'. splits; [exact P|eapply built_element; eassumption|]. exists s. auto.
Qed.
Lemma built_whole dim m el s d : 1 <= dim -> built dim m -> shape_of m el = Some s -> 1 <= d < dim -> exists ps, nth_error s d = Some ps /\ ps <> [] /\
  (forall l, part_of m d el l <> None <-> l < length ps) /\
  forall l nodes, nth_error ps l = Some nodes -> nodes <> [] /\ NoDup nodes /\ exists ns, nodes_of m d el l ns /\ NoDup ns.
Proof.
  intros Hdim B Es Hd. pose proof (built_complete dim m Hdim B) as G. unfold shape_of in Es. destruct (nth_error (elementsList m) el) as [e|] eqn:Ee0; [|discriminate]. injection Es as <-.
  assert (Ee : getElement m el = Some e) by exact Ee0. pose proof (g_shape _ _ _ _ G el e Ee) as S. destruct (level_exists dim _ d S ltac:(lia)) as (ps & Eps). exists ps.
  destruct (so_parts _ _ S d ps ltac:(lia) Eps) as (N & SP & _). splits; auto.
  - intros l. rewrite (g_parts _ _ _ _ G el e d ps l Ee Hd Eps). assert (el < length (elementsList m)) by (apply nth_error_Some; congruence).
    replace (el =? length (elementsList m)) with false by (symmetry; apply Nat.eqb_neq; lia). tauto.
  - intros l nodes Hl. destruct (SP l nodes Hl) as (N1 & N2 & _). splits; auto.
    destruct (slot_nodes dim _ m _ d el l e nodes G Hd Ee) as (ns & F & NO & _); [unfold part; rewrite Eps; exact Hl|]. exists ns. split; [exact NO|].
    destruct NO as (s' & locals & A1 & A2 & A3). rewrite (get_shape _ _ _ Ee) in A1. injection A1 as <-. unfold part in A2. rewrite Eps in A2. assert (locals = nodes) by congruence. subst.
    clear -A3 N2 G. induction A3 as [|k n ks ns E F IH]; constructor; inversion N2; subst; auto. intros Q. destruct (in_forall2_r _ _ _ _ F Q) as (k' & Hk' & Ek').
    rewrite (g_distinct _ _ _ _ G el k k' n E Ek') in *. contradiction.
Qed.
