From Coq Require Import List Arith Bool Lia Reals Lra Permutation.
From Verif Require Import Loop_model Loop_proofs RefGeometry_model Curvilinear_model VTKElements_model VTKElements_spec VTKElements_proofs.
Import ListNotations.
Local Open Scope nat_scope.

(** from the order of the code to the order of VTK *)
Definition rot (b : list nat) : list nat := match b with x :: l => l ++ [x] | [] => [] end.

Ltac lists := try apply (f_equal Some); repeat (apply (f_equal2 (@cons nat)); [lia|]); reflexivity.

(** * Triangles *)
Definition tsize (r : nat) : nat := if r =? 0 then 1 else 3 * r.
Fixpoint tstart (n l : nat) : nat := match l with O => 0 | S l => tstart n l + tsize (n - 3 * l) end.

Lemma tsize_pos r : 1 <= r -> tsize r = 3 * r.
Proof. unfold tsize. destruct (Nat.eqb_spec r 0); lia. Qed.
Lemma tstart_front n l : 3 <= n -> tstart n (S l) = 3 * n + tstart (n - 3) l.
Proof.
  intros H. induction l as [|l IH].
  - cbn [tstart]. rewrite tsize_pos by lia. lia.
  - cbn [tstart] in *. rewrite IH. replace (n - 3 - 3 * l) with (n - 3 * S l) by lia. lia.
Qed.
Lemma tstart_sum n l : 3 * l <= n -> 2 * tstart n l + (n - 3 * l + 1) * (n - 3 * l + 2) = (n + 1) * (n + 2).
Proof.
  induction l as [|l IH]; intros H; [cbn [tstart]; replace (n - 3 * 0) with n by lia; lia|].
  cbn [tstart]. rewrite tsize_pos by lia. specialize (IH ltac:(lia)).
  replace (n - 3 * l) with (n - 3 * S l + 3) in * by lia. nia.
Qed.
Lemma tstart_end n : tstart n (n / 3 + 1) = (n + 1) * (n + 2) / 2.
Proof.
  pose proof (Nat.div_mod n 3 ltac:(lia)) as D. pose proof (Nat.mod_upper_bound n 3 ltac:(lia)) as B.
  apply (Nat.div_unique _ 2 _ 0); [lia|]. pose proof (tstart_sum n (n / 3) ltac:(lia)) as S.
  rewrite (Nat.add_1_r (n / 3)). cbn [tstart]. rewrite <- S.
  replace (n - 3 * (n / 3)) with (n mod 3) in * by lia.
  destruct (n mod 3) as [|[|[|q]]]; unfold tsize; cbn [Nat.eqb]; lia.
Qed.

(** ** Layers one after the other *)
Lemma layers_ok (f : nat -> nat -> list (nat * list nat) * nat) (st : nat -> nat) : st 0 = 0 ->
  forall k, (forall l, l < k -> snd (f l (st l)) = st (S l)) ->
  layers f k = (flat_map (fun l => fst (f l (st l))) (seq 0 k), st k).
Proof.
  intros S0. induction k as [|k IH]; intros H; [unfold layers; cbn; rewrite S0; reflexivity|].
  unfold layers in *. rewrite seq_S, fold_left_app, IH by (intros l Hl; apply H; lia).
  cbn [fold_left Nat.add]. rewrite flat_map_app. cbn [flat_map]. rewrite app_nil_r.
  specialize (H k ltac:(lia)). destruct (f k (st k)) as [w index]. cbn in *. congruence.
Qed.
Lemma triangle_layer_end n l s : snd (triangle_layer n l s) = s + tsize (n - 3 * l).
Proof. unfold triangle_layer, tsize. destruct (Nat.eqb_spec (n - 3 * l) 0); cbn [snd]; lia. Qed.
Lemma triangle_layer_length n l s : length (fst (triangle_layer n l s)) = tsize (n - 3 * l).
Proof.
  unfold triangle_layer, tsize. destruct (Nat.eqb_spec (n - 3 * l) 0); cbn [fst length app]; [reflexivity|].
  rewrite (flat_map_same_length _ 3) by reflexivity. rewrite seq_length. lia.
Qed.

(** ** What a layer holds.  [r] is the order of the layer, [t] the number in the layer. *)
Definition tri_point (r t : nat) : list nat :=
  if t <? 3 then nth t [[r; 0; 0]; [0; r; 0]; [0; 0; r]] []
  else
    let i := (t - 3) mod (r - 1) in
    nth ((t - 3) / (r - 1)) [[r - i - 1; i + 1; 0]; [0; r - i - 1; i + 1]; [i + 1; 0; r - i - 1]] [].
Lemma edge_number r d i : i < r - 1 -> (3 + (d * (r - 1) + i) <? 3) = false /\
  (3 + (d * (r - 1) + i) - 3) / (r - 1) = d /\ (3 + (d * (r - 1) + i) - 3) mod (r - 1) = i.
Proof.
  intros H. split; [apply Nat.ltb_ge, Nat.le_add_r|]. set (k := d * (r - 1) + i). replace (3 + k - 3) with k by lia. unfold k.
  rewrite (Nat.mul_comm d). split; [symmetry; apply (Nat.div_unique _ (r - 1) d i)|symmetry; apply (Nat.mod_unique _ (r - 1) d i)];
    auto.
Qed.
Lemma triangle_layer_in n l s t : t < tsize (n - 3 * l) ->
  In (s + t, vplus [l; l; l] (tri_point (n - 3 * l) t)) (fst (triangle_layer n l s)).
Proof.
  unfold triangle_layer, tsize. set (r := n - 3 * l).
  destruct (Nat.eqb_spec r 0) as [->|Hr]; cbn [fst]; intros H.
  - replace t with 0 by lia. left. rewrite Nat.add_0_r. reflexivity.
  - destruct (Nat.lt_ge_cases t 3) as [Ht|Ht].
    + destruct t as [|[|[|t]]]; [left|right; left|right; right; left|lia]; rewrite ?Nat.add_0_r; reflexivity.
    + right. right. right. apply in_flat_map.
      destruct (split_block 3 (r - 1) 3 t) as (d & i & Hd & Hi & E); [lia|].
      exists i. split; [apply in_seq; lia|]. rewrite E, <- Nat.add_assoc.
      unfold tri_point. destruct (edge_number r d i Hi) as (-> & -> & ->). cbv zeta.
      destruct d as [|[|[|d]]]; [left|right; left|right; right; left|lia]; cbn [nth]; apply f_equal2; try reflexivity; lia.
Qed.

(** ** The loop of VTK finds the layer. *)
Lemma vtk_triangle_layer : forall l fuel n max min t, 3 * l <= n -> l <= fuel -> 
  vtk_triangle_loop fuel (tstart n l + t) max min n = vtk_triangle_loop (fuel - l) t (max - 2 * l) (min + l) (n - 3 * l).
Proof.
  induction l as [|l IH]; intros fuel n max min t Hn Hf.
  - cbn [tstart]. rewrite !Nat.mul_0_r, !Nat.sub_0_r, Nat.add_0_r. reflexivity.
  - destruct fuel as [|fuel]; [lia|]. rewrite tstart_front by lia. cbn [vtk_triangle_loop].
    destruct (Nat.eqb_spec (3 * n + tstart (n - 3) l + t) 0); [lia|].
    destruct (Nat.leb_spec (3 * n) (3 * n + tstart (n - 3) l + t)); [|lia]. cbn [negb andb].
    replace (3 * n + tstart (n - 3) l + t - 3 * n) with (tstart (n - 3) l + t) by lia.
    rewrite IH by lia. f_equal; lia.
Qed.
Lemma vtk_triangle_point fuel r t min : t < tsize r ->
  vtk_triangle_loop fuel t (min + r) min r = Some (rot (vplus [min; min; min] (tri_point r t))).
Proof.
  intros H.
  assert (E : negb (t =? 0) && (3 * r <=? t) = false).
  { unfold tsize in H. destruct (Nat.eqb_spec t 0); [reflexivity|]. cbn [negb andb].
    destruct (Nat.eqb_spec r 0); [lia|]. apply Nat.leb_gt. lia. }
  assert (G : forall f, (if negb (t =? 0) && (3 * r <=? t) then f else
     if t <? 3 then
    Some (map (fun c => if c =? (t + 2) mod 3 then min + r else min) [0; 1; 2])
  else
    let dim := (t - 3) / (r - 1) in
    let offset := (t - 3) - dim * (r - 1) in
    Some (map (fun c => if c =? (dim + 1) mod 3 then min else if c =? (dim + 2) mod 3 then (min + r - 1) - offset else (min + 1) + offset)
      [0; 1; 2])) = Some (rot (vplus [min; min; min] (tri_point r t)))).
  2: { destruct fuel; apply G. }
  intros f. rewrite E. destruct (Nat.ltb_spec t 3) as [Ht|Ht].
  - unfold tri_point. destruct (Nat.ltb_spec t 3) as [_|]; [|lia].
    destruct t as [|[|[|t]]]; [change ((0 + 2) mod 3) with 2|change ((1 + 2) mod 3) with 0|change ((2 + 2) mod 3) with 1|lia];
      cbn [map nth rot vplus app Nat.eqb]; rewrite !Nat.add_0_r; reflexivity.
  - unfold tsize in H. destruct (Nat.eqb_spec r 0); [lia|].
    destruct (split_block 3 (r - 1) 3 t) as (d & i & Hd & Hi & Et); [lia|]. rewrite Et, <- Nat.add_assoc.
    unfold tri_point. destruct (edge_number r d i Hi) as (-> & -> & ->). cbv zeta.
    replace (3 + (d * (r - 1) + i) - 3 - d * (r - 1)) with i by (set (k := d * (r - 1)); lia).
    destruct d as [|[|[|d]]];
      [change ((0 + 1) mod 3) with 1; change ((0 + 2) mod 3) with 2|change ((1 + 1) mod 3) with 2; change ((1 + 2) mod 3) with 0
      |change ((2 + 1) mod 3) with 0; change ((2 + 2) mod 3) with 1|lia];
      cbn [map nth rot vplus app Nat.eqb]; rewrite !Nat.add_0_r; lists.
Qed.

(** ** The triangle *)
Definition tri_writes (n : nat) : list (nat * list nat) :=
  flat_map (fun l => fst (triangle_layer n l (tstart n l))) (seq 0 (n / 3 + 1)).
Lemma tri_layers n : layers (triangle_layer n) (n / 3 + 1) = (tri_writes n, tstart n (n / 3 + 1)).
Proof. apply layers_ok; [reflexivity|]. intros l _. rewrite triangle_layer_end. reflexivity. Qed.

Lemma sum_lengths {A} (f : nat -> list A) (st sz : nat -> nat) : (forall l, length (f l) = sz l) -> st 0 = 0 ->
  (forall l, st (S l) = st l + sz l) -> forall k, length (flat_map f (seq 0 k)) = st k.
Proof.
  intros L S0 SS. induction k as [|k IH]; [symmetry; exact S0|].
  rewrite seq_S, flat_map_app, app_length, IH, SS. cbn [flat_map Nat.add]. rewrite app_nil_r, L. reflexivity.
Qed.
Lemma tri_writes_length n : length (tri_writes n) = (n + 1) * (n + 2) / 2.
Proof.
  unfold tri_writes. rewrite (sum_lengths _ (tstart n) (fun l => tsize (n - 3 * l))); try reflexivity; [apply tstart_end|].
  intros l. apply triangle_layer_length.
Qed.
Lemma find_layer (st sz : nat -> nat) : st 0 = 0 -> (forall l, st (S l) = st l + sz l) ->
  forall k i, i < st k -> exists l t, l < k /\ t < sz l /\ i = st l + t.
Proof.
  intros S0 SS. induction k as [|k IH]; intros i H; [lia|]. rewrite SS in H.
  destruct (Nat.lt_ge_cases i (st k)) as [Hi|Hi].
  - destruct (IH i Hi) as (l & t & Hl & R). exists l, t. split; [lia|exact R].
  - exists k, (i - st k). lia.
Qed.
Lemma tri_writes_in n l t : l <= n / 3 -> t < tsize (n - 3 * l) ->
  In (tstart n l + t, vplus [l; l; l] (tri_point (n - 3 * l) t)) (tri_writes n).
Proof.
  intros Hl Ht. apply in_flat_map. exists l. split; [apply in_seq; lia|]. apply triangle_layer_in, Ht.
Qed.

Lemma third_le n l : l <= n / 3 -> 3 * l <= n.
Proof. intros H. pose proof (Nat.mul_div_le n 3 ltac:(lia)). lia. Qed.

Lemma triangle_bary_ok n : exists pts, computeBaryIntegerPoints n = Some pts /\ length pts = (n + 1) * (n + 2) / 2 /\
  forall i, i < (n + 1) * (n + 2) / 2 -> exists l t, 3 * l <= n /\ t < tsize (n - 3 * l) /\ i = tstart n l + t /\
    nth_error pts i = Some (vplus [l; l; l] (tri_point (n - 3 * l) t)).
Proof.
  unfold computeBaryIntegerPoints. rewrite tri_layers, tstart_end.
  assert (F : forall i, i < (n + 1) * (n + 2) / 2 -> exists l t, l <= n / 3 /\ t < tsize (n - 3 * l) /\ i = tstart n l + t).
  { intros i Hi. rewrite <- tstart_end in Hi.
    destruct (find_layer (tstart n) (fun l => tsize (n - 3 * l)) eq_refl (fun _ => eq_refl) _ _ Hi) as (l & t & Hl & Ht & E).
    exists l, t. split; [lia|auto]. }
  destruct (assign_all (tri_writes n) [] ((n + 1) * (n + 2) / 2)) as (r & E & L & G).
  - apply tri_writes_length.
  - intros i Hi. destruct (F i Hi) as (l & t & Hl & Ht & ->).
    exact (in_map fst _ _ (tri_writes_in n l t Hl Ht)).
  - exists r. rewrite E, Nat.eqb_refl. split; [reflexivity|]. split; [exact L|]. intros i Hi.
    destruct (F i Hi) as (l & t & Hl & Ht & ->). exists l, t. split; [apply third_le, Hl|]. split; [exact Ht|].
    split; [reflexivity|]. apply G, tri_writes_in; assumption.
Qed.

(** VTK's index of the point, also when the triangle is part of something larger *)
Lemma triangle_bary_vtk n l t min fuel : 3 * l <= n -> l <= fuel -> t < tsize (n - 3 * l) ->
  vtk_triangle_loop fuel (tstart n l + t) (min + n) min n = Some (rot (vplus [min + l; min + l; min + l] (tri_point (n - 3 * l) t))).
Proof.
  intros Hl Hf Ht. rewrite vtk_triangle_layer by lia.
  replace (min + n - 2 * l) with (min + l + (n - 3 * l)) by lia. apply vtk_triangle_point, Ht.
Qed.

(** every point is there *)
Lemma tri_point_all r x y z : x + y + z = r -> x = 0 \/ y = 0 \/ z = 0 -> exists t, t < tsize r /\ tri_point r t = [x; y; z].
Proof.
  intros S O. unfold tsize. destruct (Nat.eqb_spec r 0) as [->|Hr].
  { exists 0. split; [lia|]. unfold tri_point. cbn. lists. }
  destruct (Nat.eqb_spec x r) as [Ex|Nx]; [exists 0; split; [lia|]; unfold tri_point; cbn; lists|].
  destruct (Nat.eqb_spec y r) as [Ey|Ny]; [exists 1; split; [lia|]; unfold tri_point; cbn; lists|].
  destruct (Nat.eqb_spec z r) as [Ez|Nz]; [exists 2; split; [lia|]; unfold tri_point; cbn; lists|].
  assert (H : forall d i, d < 3 -> i < r - 1 -> 3 + (d * (r - 1) + i) < 3 * r /\ tri_point r (3 + (d * (r - 1) + i)) =
      nth d [[r - i - 1; i + 1; 0]; [0; r - i - 1; i + 1]; [i + 1; 0; r - i - 1]] []).
  { intros d i Hd Hi. split; [nia|]. unfold tri_point. destruct (edge_number r d i Hi) as (-> & -> & ->). reflexivity. }
  destruct (Nat.eqb_spec z 0) as [Z|Z].
  { exists (3 + (0 * (r - 1) + (y - 1))). destruct (H 0 (y - 1)) as (A & ->); [lia|lia|]. split; [exact A|]. cbn [nth]. lists. }
  destruct (Nat.eqb_spec x 0) as [X|X].
  { exists (3 + (1 * (r - 1) + (z - 1))). destruct (H 1 (z - 1)) as (A & ->); [lia|lia|]. split; [exact A|]. cbn [nth]. lists. }
  exists (3 + (2 * (r - 1) + (x - 1))). destruct (H 2 (x - 1)) as (A & ->); [lia|lia|]. split; [exact A|]. cbn [nth]. lists.
Qed.
Lemma tstart_bound n l t : 3 * l <= n -> t < tsize (n - 3 * l) -> tstart n l + t < (n + 1) * (n + 2) / 2.
Proof.
  intros Hl Ht. pose proof (tstart_sum n l Hl) as S. enough (tstart n l + t + 1 <= (n + 1) * (n + 2) / 2) by lia.
  apply Nat.div_le_lower_bound; [lia|].
  rewrite <- S. unfold tsize in Ht. destruct (Nat.eqb_spec (n - 3 * l) 0) as [E|E]; [rewrite E; lia|].
  destruct (n - 3 * l) as [|[|q]]; [lia|lia|]. nia.
Qed.

Lemma tri_point_three r t : t < tsize r -> exists x y z, tri_point r t = [x; y; z] /\ x + y + z = r /\ (x = 0 \/ y = 0 \/ z = 0).
Proof.
  intros H. unfold tri_point. destruct (Nat.ltb_spec t 3) as [Ht|Ht].
  - unfold tsize in H. destruct t as [|[|[|t]]]; [| | |lia]; cbn [nth];
      [exists r, 0, 0|exists 0, r, 0|exists 0, 0, r]; (split; [reflexivity|lia]).
  - unfold tsize in H. destruct (Nat.eqb_spec r 0); [lia|].
    destruct (split_block 3 (r - 1) 3 t) as (d & i & Hd & Hi & E); [lia|]. rewrite E, <- Nat.add_assoc.
    destruct (edge_number r d i Hi) as (_ & -> & ->). cbv zeta.
    destruct d as [|[|[|d]]]; [| | |lia]; cbn [nth]; eexists _, _, _; (split; [reflexivity|lia]).
Qed.

(** the index of the code and that of VTK *)
Lemma triangle_bary_decode n : exists pts, computeBaryIntegerPoints n = Some pts /\ length pts = (n + 1) * (n + 2) / 2 /\
  (forall i, i < (n + 1) * (n + 2) / 2 -> exists x y z, nth_error pts i = Some [x; y; z] /\ x + y + z = n /\
     (forall fuel min, n <= fuel -> vtk_triangle_loop fuel i (min + n) min n = Some [min + y; min + z; min + x]) /\
     (i < 3 * n -> x = 0 \/ y = 0 \/ z = 0)) /\
  (forall x y z, x + y + z = n -> exists i, i < (n + 1) * (n + 2) / 2 /\ nth_error pts i = Some [x; y; z]).
Proof.
  destruct (triangle_bary_ok n) as (pts & E & L & H). exists pts. split; [exact E|]. split; [exact L|]. split.
  - intros i Hi. destruct (H i Hi) as (l & t & Hl & Ht & Ei & N).
    destruct (tri_point_three _ _ Ht) as (x & y & z & T & Sum & Z). rewrite T in N. cbn [vplus] in N.
    exists (l + x), (l + y), (l + z). split; [exact N|]. split; [lia|]. split.
    + intros fuel min Hf. rewrite Ei, triangle_bary_vtk by lia. rewrite T. cbn [vplus rot app]. lists.
    + intros Hi3. destruct l as [|l]; [lia|]. rewrite tstart_front in Ei by lia. lia.
  - intros x y z Sum.
    set (l := Nat.min x (Nat.min y z)).
    destruct (tri_point_all (n - 3 * l) (x - l) (y - l) (z - l)) as (t & Ht & T); [lia|lia|].
    assert (Hl : 3 * l <= n) by lia.
    exists (tstart n l + t). pose proof (tstart_bound n l t Hl Ht) as B. split; [exact B|].
    destruct (H _ B) as (l' & t' & Hl' & Ht' & Ei & N). rewrite N. f_equal.
    pose proof (triangle_bary_vtk n l t 0 n Hl ltac:(lia) Ht) as V.
    rewrite Ei, triangle_bary_vtk in V by (lia || exact Ht').
    rewrite T in V. destruct (tri_point_three _ _ Ht') as (x' & y' & z' & T' & _). rewrite T' in V |- *.
    cbn [vplus rot app Nat.add] in V |- *. injection V as V1 V2 V3. lists.
Qed.
Lemma triangle_number n : 1 <= n -> 3 * n + (n - 1) * (n - 2) / 2 = (n + 1) * (n + 2) / 2.
Proof.
  intros H. rewrite (Nat.add_comm (3 * n)). rewrite <- Nat.div_add by lia. f_equal.
  destruct n as [|[|n]]; [lia|reflexivity|]. replace (S (S n) - 1) with (S n) by lia. replace (S (S n) - 2) with n by lia. nia.
Qed.
