(** Theorems for C75: the absorbing layers of the optics solver. *)
From Coq Require Import List Arith Bool ZArith Reals Lia Lra.
From Verif Require Import Layers_model Layers_spec Layers_proofs.
Import ListNotations.

(** C75: on every processor the box of a zone has as corners the least and the greatest coordinates of the nodes of the
    elements of that zone, over all processors; it is empty exactly if the zone has no nodes. *)
Theorem C75_boxes : forall dim zones (processors : list (list element)) i j,
  j < dim ->
  (forall es e, In es processors -> In e es -> zoneId e < zones /\ forall node, In node (nodes e) -> length node = dim) ->
  (forall x, box lower dim zones processors i j = Some x <-> least (coordinate processors i j) x) /\
  (forall x, box upper dim zones processors i j = Some x <-> greatest (coordinate processors i j) x) /\
  (box lower dim zones processors i j = None <-> forall x, ~ coordinate processors i j x) /\
  (box upper dim zones processors i j = None <-> forall x, ~ coordinate processors i j x).
Proof.
  intros dim zones ps i j Hj H.
  assert (F : Forall (Forall (mesh_ok dim zones)) ps).
  { apply Forall_forall. intros es Hes. apply Forall_forall. intros e He. destruct (H es e Hes He) as [Hz Hn]. split; [exact Hz|]. now apply Forall_forall. }
  pose proof (box_summary lower Rle (fun b => eq_refl) lower_some Rle_refl Rle_trans dim zones ps i j Hj F) as A.
  pose proof (box_summary upper (fun a b => (b <= a)%R) (fun b => eq_refl) upper_some Rle_refl (fun a b c H1 H2 => Rle_trans c b a H2 H1) dim zones ps i j Hj F) as B.
  unfold least, greatest. split; [|split; [|split]].
  - intros x. split; [intros E; rewrite E in A; exact A|]. intros [P L].
    destruct (box lower dim zones ps i j) as [a|]; [|now destruct (A x)]. destruct A as [Pa La]. f_equal. apply Rle_antisym; auto.
  - intros x. split; [intros E; rewrite E in B; exact B|]. intros [P L].
    destruct (box upper dim zones ps i j) as [a|]; [|now destruct (B x)]. destruct B as [Pa La]. f_equal. apply Rle_antisym; auto.
  - split; [intros E; rewrite E in A; exact A|]. intros N. destruct (box lower dim zones ps i j) as [a|]; [|reflexivity]. destruct A as [Pa _]. now destruct (N a).
  - split; [intros E; rewrite E in B; exact B|]. intros N. destruct (box upper dim zones ps i j) as [a|]; [|reflexivity]. destruct B as [Pa _]. now destruct (N a).
Qed.
Print Assumptions C75_boxes.

(** Two processors, two zones in the plane; each processor holds a copy, not its own, of an element of the other one. *)
Definition two_processors : list (list element) :=
  [ [Element 0 true [[0; 0]; [1; 0]; [0; 2]]; Element 1 true [[1; 0]; [3; 1]]; Element 0 false [[100; 100]]];
    [Element 0 true [[-1; 0]; [0; 1]]; Element 1 false [[1; 0]; [3; 1]]] ]%R.
Example C75_boxes_nonvacuous :
  (forall es e, In es two_processors -> In e es -> zoneId e < 2 /\ forall node, In node (nodes e) -> length node = 2) /\
  box lower 2 2 two_processors 0 0 = Some (-1)%R /\ box upper 2 2 two_processors 0 1 = Some 2%R.
Proof.
  assert (M : forall es e, In es two_processors -> In e es -> zoneId e < 2 /\ forall node, In node (nodes e) -> length node = 2).
  { intros es e Hes He. cbn in Hes. destruct Hes as [<-|[<-|[]]]; cbn in He; repeat destruct He as [<-|He]; try contradiction; cbn; (split; [lia|]); intros node Hn; repeat destruct Hn as [<-|Hn]; try contradiction; reflexivity. }
  split; [exact M|]. split.
  - apply (C75_boxes 2 2 two_processors 0 0); [lia|exact M|]. split.
    + exists [Element 0 true [[-1; 0]; [0; 1]]; Element 1 false [[1; 0]; [3; 1]]]%R, (Element 0 true [[-1; 0]; [0; 1]]%R), [-1; 0]%R. cbn. repeat split; auto.
    + intros y [es [e [node [Hes [He [Ho [Hz [Hn Hy]]]]]]]]. cbn in Hes. destruct Hes as [<-|[<-|[]]]; cbn in He; repeat destruct He as [<-|He]; try contradiction; cbn in Ho, Hz, Hn; try discriminate; repeat destruct Hn as [<-|Hn]; try contradiction; cbn in Hy; injection Hy as <-; lra.
  - apply (C75_boxes 2 2 two_processors 0 1); [lia|exact M|]. split.
    + exists [Element 0 true [[0; 0]; [1; 0]; [0; 2]]; Element 1 true [[1; 0]; [3; 1]]; Element 0 false [[100; 100]]]%R, (Element 0 true [[0; 0]; [1; 0]; [0; 2]]%R), [0; 2]%R. cbn. repeat split; auto.
    + intros y [es [e [node [Hes [He [Ho [Hz [Hn Hy]]]]]]]]. cbn in Hes. destruct Hes as [<-|[<-|[]]]; cbn in He; repeat destruct He as [<-|He]; try contradiction; cbn in Ho, Hz, Hn; try discriminate; repeat destruct Hn as [<-|Hn]; try contradiction; cbn in Hy; injection Hy as <-; lra.
Qed.

(** C75: an element gets a layer exactly if its zone is described. That layer has the last description of that zone, the box
    of that zone, and the material of the first element of that zone; there is one layer for a zone, so that the elements of
    a zone share it. *)
Theorem C75_layers : forall (Name Material : Type) (same : Name -> Name -> bool) (pmls zones : list Name) (elements : list (nat * Material)),
  (forall a b, same a b = true <-> a = b) ->
  NoDup zones -> (Z.of_nat (length pmls) < 2 ^ 31)%Z -> (forall e, In e elements -> fst e < length zones) ->
  exists layers used, applyPMLs same pmls zones elements = Some (layers, used) /\ length used = length elements /\ NoDup (map zone layers) /\
    forall k z m name, nth_error elements k = Some (z, m) -> nth_error zones z = Some name ->
      (~ In name pmls -> nth_error used k = Some None) /\
      (forall i, last_for pmls name i -> exists n first,
         nth_error used k = Some (Some n) /\ nth_error layers n = Some (Layer i z first) /\ find (fun e => fst e =? z) elements = Some (z, first)).
Proof. intros Name Material same pmls zones elements E D B F. apply apply_layers; auto. now apply Forall_forall. Qed.
Print Assumptions C75_layers.
Example C75_layers_nonvacuous :
  NoDup [10; 20; 30; 40] /\ (Z.of_nat (length [30; 10; 30]) < 2 ^ 31)%Z /\ last_for [30; 10; 30] 30 2 /\
  applyPMLs Nat.eqb [30; 10; 30] [10; 20; 30; 40] [(1, 1%Z); (2, 2%Z); (0, 3%Z); (2, 2%Z); (0, 3%Z); (3, 4%Z)] =
  Some ([Layer 2 2 2%Z; Layer 1 0 3%Z], [None; Some 0; Some 1; Some 0; Some 1; None]).
Proof.
  split; [repeat constructor; cbn; lia|]. split; [cbn; lia|]. split; [|reflexivity]. split; [reflexivity|].
  intros j Hj. destruct j as [|[|[|j]]]; try lia. cbn. destruct j; discriminate.
Qed.

(** C75: what one might also expect of the material does not hold: if the elements of a zone have different materials, then the
    layer has the material of the first of them, and another element gets a layer for a material that is not its own. *)
Theorem C75_material_refuted : exists (pmls zones : list nat) (elements : list (nat * Z)) layers used,
  NoDup zones /\ applyPMLs Nat.eqb pmls zones elements = Some (layers, used) /\
  exists k z m n l, nth_error elements k = Some (z, m) /\ nth_error used k = Some (Some n) /\ nth_error layers n = Some l /\ material l <> m.
Proof.
  exists [5], [5], [(0, 1%Z); (0, 2%Z)], [Layer 0 0 1%Z], [Some 0; Some 0]. split; [repeat constructor; cbn; tauto|]. split; [reflexivity|].
  exists 1, 0, 2%Z, 0, (Layer 0 0 1%Z). repeat split. discriminate.
Qed.
Print Assumptions C75_material_refuted.

(** C75: a description for a zone that the mesh does not have, such as one with a mistake in its name, is not an error: the
    elements get no layer. *)
Theorem C75_unknown_zone_refuted : forall (Name Material : Type) (same : Name -> Name -> bool) (name : Name) (zones : list Name) (elements : list (nat * Material)),
  (forall a b, same a b = true <-> a = b) -> NoDup zones -> ~ In name zones -> (forall e, In e elements -> fst e < length zones) ->
  exists layers used, applyPMLs same [name] zones elements = Some (layers, used) /\ forall k e, nth_error elements k = Some e -> nth_error used k = Some None.
Proof.
  intros Name Material same name zones elements E D N F. destruct (C75_layers Name Material same [name] zones elements E D ltac:(cbn; lia) F) as [layers [used [A [_ [_ H]]]]].
  exists layers, used. split; [exact A|]. intros k [z m] Hk. assert (Hz := F _ (nth_error_In _ _ Hk)). cbn in Hz.
  destruct (nth_error zones z) as [other|] eqn:Ez; [|apply nth_error_None in Ez; lia]. destruct (H k z m other Hk Ez) as [H1 _]. apply H1.
  intros [->|[]]. apply N. now apply nth_error_In in Ez.
Qed.
Print Assumptions C75_unknown_zone_refuted.
Example C75_unknown_zone_nonvacuous : NoDup [1; 2] /\ ~ In 3 [1; 2] /\ applyPMLs Nat.eqb [3] [1; 2] [(0, tt); (1, tt)] = Some ([], [None; None]).
Proof. split; [repeat constructor; cbn; lia|]. split; [cbn; lia|reflexivity]. Qed.
