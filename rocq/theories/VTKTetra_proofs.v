From Coq Require Import List Arith Bool Lia Reals Lra Permutation.
From Verif Require Import Loop_model Loop_proofs RefGeometry_model Curvilinear_model VTKElements_model VTKElements_spec VTKElements_proofs VTKSimplex_proofs.
Import ListNotations.
Local Open Scope nat_scope.

Definition ssize (r : nat) : nat := if r =? 0 then 1 else 2 * (r * r + 1).
Fixpoint sstart (n l : nat) : nat := match l with O => 0 | S l => sstart n l + ssize (n - 4 * l) end.

Lemma ssize_pos r : 1 <= r -> ssize r = 2 * (r * r + 1).
Proof. unfold ssize. destruct (Nat.eqb_spec r 0); lia. Qed.
Lemma sstart_front n l : 4 <= n -> sstart n (S l) = 2 * (n * n + 1) + sstart (n - 4) l.
Proof.
  intros H. induction l as [|l IH].
  - cbn [sstart]. replace (n - 4 * 0) with n by lia. rewrite ssize_pos by lia. lia.
  - cbn [sstart] in *. rewrite IH. replace (n - 4 - 4 * l) with (n - 4 * S l) by lia. lia.
Qed.
Lemma sstart_sum n l : 4 * l <= n ->
  6 * sstart n l + (n - 4 * l + 1) * (n - 4 * l + 2) * (n - 4 * l + 3) = (n + 1) * (n + 2) * (n + 3).
Proof.
  induction l as [|l IH]; intros H; [cbn [sstart]; replace (n - 4 * 0) with n by lia; lia|].
  cbn [sstart]. rewrite ssize_pos by lia. specialize (IH ltac:(lia)).
  replace (n - 4 * l) with (n - 4 * S l + 4) in * by lia. nia.
Qed.
Lemma sstart_end n : sstart n (n / 4 + 1) = (n + 1) * (n + 2) * (n + 3) / 6.
Proof.
  pose proof (Nat.div_mod n 4 ltac:(lia)) as D. pose proof (Nat.mod_upper_bound n 4 ltac:(lia)) as B.
  apply (Nat.div_unique _ 6 _ 0); [lia|]. pose proof (sstart_sum n (n / 4) ltac:(lia)) as S.
  rewrite (Nat.add_1_r (n / 4)). cbn [sstart]. rewrite <- S.
  replace (n - 4 * (n / 4)) with (n mod 4) in * by lia.
  destruct (n mod 4) as [|[|[|[|q]]]]; unfold ssize; cbn [Nat.eqb]; lia.
Qed.
Lemma triangle_even n : 2 * ((n + 1) * (n + 2) / 2) = (n + 1) * (n + 2).
Proof.
  rewrite <- tstart_end.
  pose proof (Nat.div_mod n 3 ltac:(lia)) as D. pose proof (Nat.mod_upper_bound n 3 ltac:(lia)) as B.
  pose proof (tstart_sum n (n / 3) ltac:(lia)) as S.
  rewrite (Nat.add_1_r (n / 3)). cbn [tstart]. rewrite <- S.
  replace (n - 3 * (n / 3)) with (n mod 3) in * by lia.
  destruct (n mod 3) as [|[|[|q]]]; unfold tsize; cbn [Nat.eqb]; lia.
Qed.
Definition per_face (r : nat) : nat := (r - 2) * (r - 1) / 2.
Lemma per_face_even r : 2 * per_face r = (r - 2) * (r - 1).
Proof.
  unfold per_face. destruct (Nat.lt_ge_cases r 3) as [H|H].
  - destruct r as [|[|[|r]]]; [reflexivity..|lia].
  - replace (r - 2) with (r - 3 + 1) by lia. replace (r - 1) with (r - 3 + 2) by lia. apply triangle_even.
Qed.
Lemma ssize_parts r : 1 <= r -> 4 + 6 * (r - 1) + 4 * per_face r = ssize r.
Proof.
  intros H. rewrite ssize_pos by exact H. pose proof (per_face_even r).
  destruct r as [|[|r]]; [lia|lia|]. replace (S (S r) - 2) with r in * by lia. replace (S (S r) - 1) with (S r) in * by lia. nia.
Qed.

(** ** The points on the faces *)
Definition on_face (m p : list nat) : list nat := map (placed m p 0) [0; 1; 2; 3].
Lemma localPoint_ok m x y z : In m faceMapping -> localPoint m [x; y; z] = Some (on_face m [x; y; z]).
Proof. intros [<-|[<-|[<-|[<-|[]]]]]; reflexivity. Qed.
Lemma all_some_ok {A} (l : list A) : all_some (map Some l) = Some l.
Proof. induction l as [|x l IH]; [reflexivity|]. cbn. rewrite IH. reflexivity. Qed.
Lemma flat_map_ext_in {A B} (f g : A -> list B) l : (forall x, In x l -> f x = g x) -> flat_map f l = flat_map g l.
Proof.
  induction l as [|x l IH]; intros H; [reflexivity|]. cbn. rewrite (H x) by (left; reflexivity). f_equal.
  apply IH. intros y Hy. apply H. right. exact Hy.
Qed.
Lemma nth_error_skipn {A} (l : list A) k i : nth_error (skipn k l) i = nth_error l (k + i).
Proof.
  revert l. induction k as [|k IH]; intros l; [reflexivity|]. destruct l as [|x l]; [destruct i; reflexivity|]. apply IH.
Qed.

Record layer_ok (l r s : nat) (ws : list (nat * list nat)) : Prop := {
  lo_length : length ws = ssize r;
  lo_at : forall t, t < ssize r -> exists w x y z, In (s + t, [l + w; l + x; l + y; l + z]) ws /\ w + x + y + z = r /\
    forall fuel, vtk_tetrahedron_loop fuel t (l + r) l r = Some [l + x; l + y; l + z; l + w];
  lo_all : forall w x y z, w + x + y + z = r -> w = 0 \/ x = 0 \/ y = 0 \/ z = 0 ->
    exists t, t < ssize r /\ In (s + t, [l + w; l + x; l + y; l + z]) ws }.

Lemma vtk_tetra_stop fuel t max min r : t < ssize r -> vtk_tetrahedron_loop fuel t max min r =
  if t <? 4 then
    Some (map (fun c => if c =? vtk_vertex_max t then max else min) [0; 1; 2; 3])
  else if t - 4 <? 6 * (r - 1) then
    let edge := vtk_edge ((t - 4) / (r - 1)) in
    let vertex := (t - 4) mod (r - 1) in
    Some (map (fun c => min + (vtk_linear_vertex (fst edge) c * (max - min - 1 - vertex) + vtk_linear_vertex (snd edge) c * (1 + vertex)))
      [0; 1; 2; 3])
  else
    let perFace := per_face r in
    let face := (t - 4 - 6 * (r - 1)) / perFace in
    let vertex := (t - 4 - 6 * (r - 1)) - face * perFace in
    match (if r =? 3 then Some [0; 0; 0] else vtk_triangle vertex (r - 3)) with
    | None => None
    | Some projected =>
        Some (map (placed (vtk_face_coords face) (map (fun x => min + 1 + x) projected) min) [0; 1; 2; 3])
    end.
Proof.
  intros H.
  assert (E : (2 * (r * r + 1) <=? t) && negb (t =? 0) && (3 <? r) = false).
  { unfold ssize in H. destruct (Nat.eqb_spec r 0) as [E0|Hr]; [destruct t; [rewrite E0; reflexivity|lia]|].
    destruct (Nat.leb_spec (2 * (r * r + 1)) t); [lia|reflexivity]. }
  destruct fuel as [|fuel]; cbn [vtk_tetrahedron_loop]; rewrite E; reflexivity.
Qed.

Lemma vtk_tetra_corner fuel t min r : 1 <= r -> t < 4 ->
  vtk_tetrahedron_loop fuel t (min + r) min r = Some (map (fun c => if c =? vtk_vertex_max t then min + r else min) [0; 1; 2; 3]).
Proof.
  intros Hr Ht. rewrite vtk_tetra_stop.
  - destruct (Nat.ltb_spec t 4); [reflexivity|lia].
  - rewrite ssize_pos by exact Hr. nia.
Qed.
Lemma vtk_tetra_edge fuel e i min r : 1 <= r -> e < 6 -> i < r - 1 ->
  vtk_tetrahedron_loop fuel (4 + (e * (r - 1) + i)) (min + r) min r =
    Some (map (fun c => min + (vtk_linear_vertex (fst (vtk_edge e)) c * (r - 1 - i) + vtk_linear_vertex (snd (vtk_edge e)) c * (1 + i))) [0; 1; 2; 3]).
Proof.
  intros Hr He Hi. assert (B : e * (r - 1) + i < 6 * (r - 1)) by nia.
  set (k := e * (r - 1) + i) in *.
  rewrite vtk_tetra_stop by (rewrite <- ssize_parts by exact Hr; lia).
  destruct (Nat.ltb_spec (4 + k) 4); [lia|]. replace (4 + k - 4) with k by lia.
  destruct (Nat.ltb_spec k (6 * (r - 1))); [|lia]. cbv zeta.
  replace (k / (r - 1)) with e by (apply (Nat.div_unique _ (r - 1) e i); [exact Hi|unfold k; lia]).
  replace (k mod (r - 1)) with i by (apply (Nat.mod_unique _ (r - 1) e i); [exact Hi|unfold k; lia]).
  replace (min + r - min - 1 - i) with (r - 1 - i) by lia. reflexivity.
Qed.
Lemma vtk_tetra_face fuel f v min r p : 1 <= r -> f < 4 -> v < per_face r -> vtk_triangle v (r - 3) = Some p ->
  vtk_tetrahedron_loop fuel (4 + 6 * (r - 1) + (f * per_face r + v)) (min + r) min r =
    Some (map (placed (vtk_face_coords f) (map (fun x => min + 1 + x) p) min) [0; 1; 2; 3]).
Proof.
  intros Hr Hf Hv E. assert (B : f * per_face r + v < 4 * per_face r) by nia.
  set (k := f * per_face r + v) in *.
  rewrite vtk_tetra_stop by (rewrite <- ssize_parts by exact Hr; lia).
  destruct (Nat.ltb_spec (4 + 6 * (r - 1) + k) 4); [lia|].
  destruct (Nat.ltb_spec (4 + 6 * (r - 1) + k - 4) (6 * (r - 1))); [lia|]. cbv zeta.
  replace (4 + 6 * (r - 1) + k - 4 - 6 * (r - 1)) with k by lia.
  replace (k / per_face r) with f by (apply (Nat.div_unique _ (per_face r) f v); [exact Hv|unfold k; lia]).
  replace (k - f * per_face r) with v by (unfold k; lia).
  destruct (Nat.eqb_spec r 3) as [->|_].
  - assert (v = 0) by (unfold per_face in Hv; cbn in Hv; lia). subst v. cbn in E. injection E as <-. reflexivity.
  - rewrite E. reflexivity.
Qed.

Lemma layer_4 l a b c d : vplus [l; l; l; l] [a; b; c; d] = [l + a; l + b; l + c; l + d].
Proof. reflexivity. Qed.

(** the points inside of a face *)
Lemma inner_face r : 1 <= r -> exists fp, computeBaryIntegerPoints r = Some fp /\ length (skipn (3 * r) fp) = per_face r /\
  3 * r <= length fp /\
  (forall p, In p (skipn (3 * r) fp) -> length p = 3) /\
  (forall v, v < per_face r -> exists x y z, nth_error (skipn (3 * r) fp) v = Some [S x; S y; S z] /\ S x + S y + S z = r /\
     vtk_triangle v (r - 3) = Some [y; z; x]) /\
  (forall x y z, S x + S y + S z = r -> exists v, v < per_face r /\ nth_error (skipn (3 * r) fp) v = Some [S x; S y; S z]).
Proof.
  intros Hr. destruct (triangle_bary_decode r) as (fp & E & L & H & C).
  assert (P : 3 * r + per_face r = length fp).
  { rewrite L, <- (triangle_number r Hr). unfold per_face. rewrite (Nat.mul_comm (r - 1)). reflexivity. }
  assert (Lf : length (skipn (3 * r) fp) = per_face r) by (rewrite skipn_length; lia).
  exists fp. split; [exact E|]. split; [exact Lf|]. split; [lia|]. split; [|split].
  - intros p Hp. apply In_nth_error in Hp. destruct Hp as (i & Hp). rewrite nth_error_skipn in Hp.
    assert (Hi : 3 * r + i < length fp) by (apply nth_error_Some; congruence). rewrite L in Hi.
    destruct (H _ Hi) as (x & y & z & Hn & _). rewrite Hp in Hn. injection Hn as ->. reflexivity.
  - intros v Hv. destruct (H (3 * r + v)) as (x & y & z & Hn & Sum & V & _); [lia|].
    assert (Hr3 : 3 <= r). { destruct r as [|[|[|r]]]; try lia; unfold per_face in Hv; cbn in Hv; lia. }
    destruct (triangle_bary_decode (r - 3)) as (fp' & E' & L' & H' & _).
    destruct (H' v) as (x' & y' & z' & _ & Sum' & V' & _).
    { unfold per_face in Hv. replace (r - 2) with (r - 3 + 1) in Hv by lia. replace (r - 1) with (r - 3 + 2) in Hv by lia. exact Hv. }
    specialize (V r 0 ltac:(lia)). destruct r as [|r]; [lia|]. cbn [vtk_triangle_loop] in V.
    destruct (Nat.eqb_spec (3 * S r + v) 0); [lia|]. destruct (Nat.leb_spec (3 * S r) (3 * S r + v)); [|lia]. cbn [negb andb] in V.
    replace (3 * S r + v - 3 * S r) with v in V by lia. replace (0 + S r - 2) with (1 + (S r - 3)) in V by lia.
    change (0 + 1) with 1 in V. rewrite (V' r 1) in V by lia. injection V as V1 V2 V3.
    exists x', y', z'. rewrite nth_error_skipn, Hn. split; [lists|]. split; [lia|].
    unfold vtk_triangle. exact (V' (S r - 3) 0 (Nat.le_refl _)).
  - intros x y z Sum. destruct (C (S x) (S y) (S z) Sum) as (i & Hi & Hn).
    destruct (H i Hi) as (x' & y' & z' & Hn' & _ & _ & Z). rewrite Hn in Hn'. injection Hn' as <- <- <-.
    assert (3 * r <= i). { destruct (Nat.lt_ge_cases i (3 * r)) as [Hl|Hg]; [|exact Hg]. specialize (Z Hl). lia. }
    exists (i - 3 * r). split; [lia|]. rewrite nth_error_skipn. replace (3 * r + (i - 3 * r)) with i by lia. exact Hn.
Qed.

Lemma tetrahedron_layer_ok n l s : 4 * l <= n ->
  exists ws, tetrahedron_layer n l s = Some (ws, s + ssize (n - 4 * l)) /\ layer_ok l (n - 4 * l) s ws.
Proof.
  intros Hl. unfold tetrahedron_layer. set (r := n - 4 * l). clearbody r. clear Hl n.
  destruct (Nat.eqb_spec r 0) as [E|Hr].
  { eexists. split; [unfold ssize; rewrite E; reflexivity|]. rewrite E. split.
    - reflexivity.
    - unfold ssize. cbn [Nat.eqb]. intros t Ht. replace t with 0 by lia. exists 0, 0, 0, 0. rewrite !Nat.add_0_r.
      split; [left; cbn; rewrite !Nat.add_0_r; reflexivity|]. split; [reflexivity|]. intros fuel. destruct fuel; cbn; rewrite ?Nat.add_0_r; reflexivity.
    - intros w x y z Sum _. exists 0. split; [unfold ssize; cbn; lia|]. left.
      replace w with 0 by lia. replace x with 0 by lia. replace y with 0 by lia. replace z with 0 by lia. rewrite Nat.add_0_r. reflexivity. }
  assert (Hr1 : 1 <= r) by lia.
  destruct (inner_face r Hr1) as (fp & -> & Lf & Lfp & P3 & F & A).
  destruct (Nat.ltb_spec (length fp) (3 * r)); [lia|].
  set (q := skipn (3 * r) fp) in *. clearbody q. clear fp Lfp H.
  set (faces := flat_map (fun m => map (on_face m) q) faceMapping).
  assert (EF : flat_map (fun m => map (fun p => localPoint m p) q) faceMapping = map Some faces).
  { unfold faces. rewrite map_flat_map. apply flat_map_ext_in. intros m Hm. rewrite map_map. apply map_ext_in. intros p Hp.
    specialize (P3 p Hp). destruct p as [|x [|y [|z [|? ?]]]]; cbn in P3; try lia. apply localPoint_ok, Hm. }
  rewrite EF, all_some_ok. clear EF P3.
  assert (LF : length faces = 4 * per_face r).
  { unfold faces. rewrite (flat_map_same_length _ (per_face r)); [reflexivity|]. intros m _. rewrite map_length. exact Lf. }
  pose proof (ssize_parts r Hr1) as Parts.
  assert (NF : forall f v m p, nth_error faceMapping f = Some m -> nth_error q v = Some p ->
    nth_error faces (f * per_face r + v) = Some (on_face m p)).
  { intros f v m p Hf Hv. rewrite (Nat.mul_comm f). unfold faces. eapply nth_error_flat_map.
    - intros m' _. rewrite map_length. exact Lf.
    - exact Hf.
    - rewrite nth_error_map, Hv. reflexivity. }
  eexists. split; [f_equal; f_equal; rewrite LF; lia|].
  assert (IC : forall t, t < 4 -> forall X, In (s + t, nth t [[l + r; l; l; l]; [l; l + r; l; l]; [l; l; l + r; l]; [l; l; l; l + r]] [])
     ((s, vplus [l; l; l; l] [r; 0; 0; 0]) :: [(s + 1, vplus [l; l; l; l] [0; r; 0; 0]);
      (s + 2, vplus [l; l; l; l] [0; 0; r; 0]); (s + 3, vplus [l; l; l; l] [0; 0; 0; r])] ++ X)).
  { intros t Ht X. rewrite !layer_4, !Nat.add_0_r.
    destruct t as [|[|[|[|t]]]]; [left|right; left|right; right; left|right; right; right; left|lia]; cbn [nth]; rewrite ?Nat.add_0_r; reflexivity. }
  split.
  - cbn [length app]. rewrite app_length, numbered_length, map_length, LF, (flat_map_same_length _ 6) by reflexivity.
    rewrite seq_length. lia.
  - intros t Ht. destruct (Nat.lt_ge_cases t 4) as [H4|H4].
    { specialize (IC t H4).
      destruct t as [|[|[|[|t]]]]; [| | | |lia]; cbn [nth] in IC;
        [exists r, 0, 0, 0|exists 0, r, 0, 0|exists 0, 0, r, 0|exists 0, 0, 0, r];
        rewrite !Nat.add_0_r; (split; [rewrite ?Nat.add_0_r in IC; apply IC|]); (split; [lia|]); intros fuel;
        rewrite vtk_tetra_corner by lia; cbn; rewrite ?Nat.add_0_r; reflexivity. }
    destruct (Nat.lt_ge_cases t (4 + 6 * (r - 1))) as [H6|H6].
    { destruct (split_block 4 (r - 1) 6 t) as (e & i & He & Hi & Et); [lia|].
      rewrite Et, <- Nat.add_assoc.
      assert (IE : exists w x y z, In (s + (4 + (e * (r - 1) + i)), [l + w; l + x; l + y; l + z])
        (flat_map (fun i => let ito := i + 1 in let ifrom := r - ito in
          [(s + 4 + 0 * (r - 1) + i, vplus [l; l; l; l] [ifrom; ito; 0; 0]); (s + 4 + 1 * (r - 1) + i, vplus [l; l; l; l] [0; ifrom; ito; 0]);
           (s + 4 + 2 * (r - 1) + i, vplus [l; l; l; l] [ito; 0; ifrom; 0]); (s + 4 + 3 * (r - 1) + i, vplus [l; l; l; l] [ifrom; 0; 0; ito]);
           (s + 4 + 4 * (r - 1) + i, vplus [l; l; l; l] [0; ifrom; 0; ito]); (s + 4 + 5 * (r - 1) + i, vplus [l; l; l; l] [0; 0; ifrom; ito])]) (seq 0 (r - 1)))
        /\ w + x + y + z = r /\
        forall fuel, vtk_tetrahedron_loop fuel (4 + (e * (r - 1) + i)) (l + r) l r = Some [l + x; l + y; l + z; l + w]).
      { destruct e as [|[|[|[|[|[|e]]]]]]; [| | | | | |lia];
          [exists (r - (i + 1)), (i + 1), 0, 0|exists 0, (r - (i + 1)), (i + 1), 0|exists (i + 1), 0, (r - (i + 1)), 0
          |exists (r - (i + 1)), 0, 0, (i + 1)|exists 0, (r - (i + 1)), 0, (i + 1)|exists 0, 0, (r - (i + 1)), (i + 1)];
          (split; [apply in_flat_map; exists i; split; [apply in_seq; lia|]; cbv zeta; rewrite !layer_4; cbn [In];
             repeat first [left; apply f_equal2; [lia|reflexivity]|right]|]);
          (split; [lia|]); intros fuel; rewrite vtk_tetra_edge by lia; cbn [map vtk_edge nth fst snd vtk_linear_vertex vtk_vertex_max Nat.eqb];
          rewrite ?Nat.mul_0_l, ?Nat.mul_1_l; lists. }
      destruct IE as (w & x & y & z & I & R). exists w, x, y, z. split; [|exact R].
      right. right. right. right. apply in_or_app. right. apply in_or_app. left. exact I. }
    destruct (split_block (4 + 6 * (r - 1)) (per_face r) 4 t) as (f & v & Hf & Hv & Et); [lia|].
    rewrite <- Nat.add_assoc in Et. rewrite Et. clear Et.
    destruct (F v Hv) as (x & y & z & Nq & Sum & V).
    assert (IFc : exists m, nth_error faceMapping f = Some m). { destruct f as [|[|[|[|f]]]]; [eexists; reflexivity..|lia]. }
    destruct IFc as (m & Hm). specialize (NF f v m _ Hm Nq).
    assert (In4 : In (s + (4 + 6 * (r - 1) + (f * per_face r + v)), vplus [l; l; l; l] (on_face m [S x; S y; S z]))
       (numbered (s + 4 + 6 * (r - 1)) (map (vplus [l; l; l; l]) faces))).
    { replace (s + (4 + 6 * (r - 1) + (f * per_face r + v))) with (s + 4 + 6 * (r - 1) + (f * per_face r + v)) by lia.
      apply numbered_in. rewrite nth_error_map, NF. reflexivity. }
    assert (VF : forall fuel, vtk_tetrahedron_loop fuel (4 + 6 * (r - 1) + (f * per_face r + v)) (l + r) l r =
       Some (rot (vplus [l; l; l; l] (on_face m [S x; S y; S z]))) /\ exists a b c d, on_face m [S x; S y; S z] = [a; b; c; d] /\ a + b + c + d = r).
    { intros fuel. rewrite (vtk_tetra_face _ _ _ _ _ _ Hr1 Hf Hv V).
      destruct f as [|[|[|[|f]]]]; [| | | |lia]; cbn in Hm; injection Hm as <-;
        unfold on_face, vtk_face_coords; cbn [nth map placed Nat.eqb vplus rot app];
        (split; [lists|]); eexists _, _, _, _; (split; [reflexivity|lia]). }
    destruct (proj2 (VF 0)) as (a & b & c & d & Ef & Sf). rewrite Ef, layer_4 in In4.
    exists a, b, c, d. split; [right; right; right; right; apply in_or_app; right; apply in_or_app; right; exact In4|]. split; [exact Sf|].
    intros fuel. rewrite (proj1 (VF fuel)), Ef. reflexivity.
  - intros w x y z Sum Z.
    destruct (Nat.eqb_spec w r) as [Ew|Nw]. { exists 0. split; [lia|]. specialize (IC 0 ltac:(lia)). cbn [nth] in IC.
      replace [l + w; l + x; l + y; l + z] with [l + r; l; l; l] by lists. apply IC. }
    destruct (Nat.eqb_spec x r) as [Ex|Nx]. { exists 1. split; [lia|]. specialize (IC 1 ltac:(lia)). cbn [nth] in IC.
      replace [l + w; l + x; l + y; l + z] with [l; l + r; l; l] by lists. apply IC. }
    destruct (Nat.eqb_spec y r) as [Ey|Ny]. { exists 2. split; [lia|]. specialize (IC 2 ltac:(lia)). cbn [nth] in IC.
      replace [l + w; l + x; l + y; l + z] with [l; l; l + r; l] by lists. apply IC. }
    destruct (Nat.eqb_spec z r) as [Ez|Nz]. { exists 3. split; [lia|]. specialize (IC 3 ltac:(lia)). cbn [nth] in IC.
      replace [l + w; l + x; l + y; l + z] with [l; l; l; l + r] by lists. apply IC. }
    clear IC.
    assert (EE : forall e i, e < 6 -> i < r - 1 ->
      [l + w; l + x; l + y; l + z] = vplus [l; l; l; l] (nth e [[r - (i + 1); i + 1; 0; 0]; [0; r - (i + 1); i + 1; 0]; [i + 1; 0; r - (i + 1); 0];
         [r - (i + 1); 0; 0; i + 1]; [0; r - (i + 1); 0; i + 1]; [0; 0; r - (i + 1); i + 1]] []) ->
      exists t, t < ssize r /\ In (s + t, [l + w; l + x; l + y; l + z])
        (flat_map (fun i => let ito := i + 1 in let ifrom := r - ito in
          [(s + 4 + 0 * (r - 1) + i, vplus [l; l; l; l] [ifrom; ito; 0; 0]); (s + 4 + 1 * (r - 1) + i, vplus [l; l; l; l] [0; ifrom; ito; 0]);
           (s + 4 + 2 * (r - 1) + i, vplus [l; l; l; l] [ito; 0; ifrom; 0]); (s + 4 + 3 * (r - 1) + i, vplus [l; l; l; l] [ifrom; 0; 0; ito]);
           (s + 4 + 4 * (r - 1) + i, vplus [l; l; l; l] [0; ifrom; 0; ito]); (s + 4 + 5 * (r - 1) + i, vplus [l; l; l; l] [0; 0; ifrom; ito])]) (seq 0 (r - 1)))).
    { intros e i He Hi ->. exists (4 + e * (r - 1) + i). split; [nia|]. apply in_flat_map. exists i. split; [apply in_seq; lia|]. cbv zeta.
      destruct e as [|[|[|[|[|[|e]]]]]]; [| | | | | |lia]; cbn [nth In]; repeat first [left; apply f_equal2; [lia|reflexivity]|right]. }
    assert (EF : forall f a b c, f < 4 -> S a + S b + S c = r ->
      [l + w; l + x; l + y; l + z] = vplus [l; l; l; l] (on_face (nth f faceMapping []) [S a; S b; S c]) ->
      exists t, t < ssize r /\ In (s + t, [l + w; l + x; l + y; l + z]) (numbered (s + 4 + 6 * (r - 1)) (map (vplus [l; l; l; l]) faces))).
    { intros f a b c Hf Sabc ->. destruct (A a b c Sabc) as (v & Hv & Nq).
      exists (4 + 6 * (r - 1) + (f * per_face r + v)). split; [nia|].
      replace (s + (4 + 6 * (r - 1) + (f * per_face r + v))) with (s + 4 + 6 * (r - 1) + (f * per_face r + v)) by lia.
      apply numbered_in. rewrite nth_error_map, (NF f v (nth f faceMapping []) [S a; S b; S c]); [reflexivity| |exact Nq].
      apply nth_error_nth'. exact Hf. }
    assert (Wrap : (exists t, t < ssize r /\ In (s + t, [l + w; l + x; l + y; l + z])
        (flat_map (fun i => let ito := i + 1 in let ifrom := r - ito in
          [(s + 4 + 0 * (r - 1) + i, vplus [l; l; l; l] [ifrom; ito; 0; 0]); (s + 4 + 1 * (r - 1) + i, vplus [l; l; l; l] [0; ifrom; ito; 0]);
           (s + 4 + 2 * (r - 1) + i, vplus [l; l; l; l] [ito; 0; ifrom; 0]); (s + 4 + 3 * (r - 1) + i, vplus [l; l; l; l] [ifrom; 0; 0; ito]);
           (s + 4 + 4 * (r - 1) + i, vplus [l; l; l; l] [0; ifrom; 0; ito]); (s + 4 + 5 * (r - 1) + i, vplus [l; l; l; l] [0; 0; ifrom; ito])]) (seq 0 (r - 1))))
       \/ exists t, t < ssize r /\ In (s + t, [l + w; l + x; l + y; l + z]) (numbered (s + 4 + 6 * (r - 1)) (map (vplus [l; l; l; l]) faces))).
    { destruct (Nat.eqb_spec w 0) as [W|W]; destruct (Nat.eqb_spec x 0) as [X|X]; destruct (Nat.eqb_spec y 0) as [Y|Y]; destruct (Nat.eqb_spec z 0) as [ZZ|ZZ];
        try lia.
      all: match goal with
        | _ => left; first [apply (EE 0 (x - 1)); [lia|lia|cbn; lists] | apply (EE 1 (y - 1)); [lia|lia|cbn; lists] | apply (EE 2 (w - 1)); [lia|lia|cbn; lists]
            | apply (EE 3 (z - 1)); [lia|lia|cbn; lists] | apply (EE 4 (z - 1)); [lia|lia|cbn; lists] | apply (EE 5 (z - 1)); [lia|lia|cbn; lists]]
        | _ => right; first [apply (EF 0 (w - 1) (x - 1) (z - 1)); [lia|lia|cbn; lists] | apply (EF 1 (y - 1) (z - 1) (x - 1)); [lia|lia|cbn; lists]
            | apply (EF 2 (w - 1) (z - 1) (y - 1)); [lia|lia|cbn; lists] | apply (EF 3 (w - 1) (y - 1) (x - 1)); [lia|lia|cbn; lists]]
        end. }
    destruct Wrap as [(t & Ht & I)|(t & Ht & I)]; exists t; (split; [exact Ht|]); right; right; right; right; apply in_or_app; right; apply in_or_app; [left|right]; exact I.
Qed.

(** ** All layers *)
Definition tet_writes (n l : nat) : list (nat * list nat) :=
  match tetrahedron_layer n l (sstart n l) with Some (w, _) => w | None => [] end.
Lemma tet_writes_ok n l : 4 * l <= n ->
  tetrahedron_layer n l (sstart n l) = Some (tet_writes n l, sstart n (S l)) /\ layer_ok l (n - 4 * l) (sstart n l) (tet_writes n l).
Proof.
  intros H. destruct (tetrahedron_layer_ok n l (sstart n l) H) as (ws & E & O).
  unfold tet_writes. rewrite E. split; [reflexivity|exact O].
Qed.
Lemma quarter_le n l : l <= n / 4 -> 4 * l <= n.
Proof. intros H. pose proof (Nat.mul_div_le n 4 ltac:(lia)). lia. Qed.
Lemma tet_layers n : forall k, k <= n / 4 + 1 ->
  tetrahedron_layers n k = Some (flat_map (tet_writes n) (seq 0 k), sstart n k) /\ length (flat_map (tet_writes n) (seq 0 k)) = sstart n k.
Proof.
  unfold tetrahedron_layers. induction k as [|k IH]; intros H; [split; reflexivity|].
  destruct (IH ltac:(lia)) as (E & L).
  destruct (tet_writes_ok n k) as (Ew & O); [apply quarter_le; lia|].
  rewrite seq_S, fold_left_app, flat_map_app, E, app_length, L. cbn [fold_left flat_map Nat.add]. rewrite app_nil_r, Ew.
  split; [reflexivity|]. rewrite (lo_length _ _ _ _ O). reflexivity.
Qed.

Lemma vtk_tetra_layer : forall l fuel n max min t, 4 * l <= n -> l <= fuel ->
  vtk_tetrahedron_loop fuel (sstart n l + t) max min n = vtk_tetrahedron_loop (fuel - l) t (max - 3 * l) (min + l) (n - 4 * l).
Proof.
  induction l as [|l IH]; intros fuel n max min t Hn Hf.
  - cbn [sstart]. rewrite !Nat.mul_0_r, !Nat.sub_0_r, Nat.add_0_r. reflexivity.
  - destruct fuel as [|fuel]; [lia|]. rewrite sstart_front by lia. cbn [vtk_tetrahedron_loop].
    set (A := 2 * (n * n + 1)) in *. assert (HA : A <> 0) by (unfold A; lia). clearbody A.
    destruct (Nat.eqb_spec (A + sstart (n - 4) l + t) 0); [lia|].
    destruct (Nat.leb_spec A (A + sstart (n - 4) l + t)); [|lia]. 
    destruct (Nat.ltb_spec 3 n); [|lia]. cbn [negb andb].
    replace (A + sstart (n - 4) l + t - A) with (sstart (n - 4) l + t) by lia.
    rewrite IH by lia. f_equal; lia.
Qed.
Lemma sstart_bound n l t : 4 * l <= n -> t < ssize (n - 4 * l) -> sstart n l + t < (n + 1) * (n + 2) * (n + 3) / 6.
Proof.
  intros Hl Ht. pose proof (sstart_sum n l Hl) as S. enough (sstart n l + t + 1 <= (n + 1) * (n + 2) * (n + 3) / 6) by lia.
  apply Nat.div_le_lower_bound; [lia|].
  rewrite <- S. unfold ssize in Ht. destruct (Nat.eqb_spec (n - 4 * l) 0) as [E|E]; [rewrite E; lia|].
  destruct (n - 4 * l) as [|[|[|[|q]]]]; [lia|lia|lia|lia|]. nia.
Qed.

Lemma tetrahedron_bary_decode n : exists pts, tetrahedron_bary n = Some pts /\ length pts = (n + 1) * (n + 2) * (n + 3) / 6 /\
  (forall i, i < (n + 1) * (n + 2) * (n + 3) / 6 -> exists w x y z, nth_error pts i = Some [w; x; y; z] /\ w + x + y + z = n /\
     vtk_tetrahedron i n = Some [x; y; z; w]) /\
  (forall w x y z, w + x + y + z = n -> In [w; x; y; z] pts).
Proof.
  destruct (tet_layers n (n / 4 + 1) (le_n _)) as (E & L). unfold tetrahedron_bary. rewrite E, sstart_end in *.
  set (ws := flat_map (tet_writes n) (seq 0 (n / 4 + 1))) in *.
  assert (F : forall i, i < (n + 1) * (n + 2) * (n + 3) / 6 -> exists w x y z, In (i, [w; x; y; z]) ws /\ w + x + y + z = n /\
     vtk_tetrahedron i n = Some [x; y; z; w]).
  { intros i Hi. rewrite <- sstart_end in Hi.
    destruct (find_layer (sstart n) (fun l => ssize (n - 4 * l)) eq_refl (fun _ => eq_refl) _ _ Hi) as (l & t & Hl & Ht & ->).
    assert (H4 : 4 * l <= n) by (apply quarter_le; lia).
    destruct (tet_writes_ok n l H4) as (_ & O).
    destruct (lo_at _ _ _ _ O t Ht) as (w & x & y & z & I & Sum & V).
    exists (l + w), (l + x), (l + y), (l + z). split; [apply in_flat_map; exists l; split; [apply in_seq; lia|exact I]|].
    split; [lia|]. unfold vtk_tetrahedron. rewrite vtk_tetra_layer by lia.
    replace (n - 3 * l) with (l + (n - 4 * l)) by lia. apply V. }
  destruct (assign_all ws [] ((n + 1) * (n + 2) * (n + 3) / 6)) as (r & Er & Lr & G).
  - exact L.
  - intros i Hi. destruct (F i Hi) as (w & x & y & z & I & _). exact (in_map fst _ _ I).
  - exists r. rewrite Er, Nat.eqb_refl. split; [reflexivity|]. split; [exact Lr|]. split.
    + intros i Hi. destruct (F i Hi) as (w & x & y & z & I & R). exists w, x, y, z. split; [apply G, I|exact R].
    + intros w x y z Sum. set (l := Nat.min (Nat.min w x) (Nat.min y z)).
      assert (H4 : 4 * l <= n) by lia.
      destruct (tet_writes_ok n l H4) as (_ & O).
      destruct (lo_all _ _ _ _ O (w - l) (x - l) (y - l) (z - l)) as (t & Ht & I); [lia|lia|].
      replace [l + (w - l); l + (x - l); l + (y - l); l + (z - l)] with [w; x; y; z] in I by lists.
      apply (nth_error_In _ (sstart n l + t)), G. apply in_flat_map. exists l. split; [|exact I].
      apply in_seq. split; [lia|]. enough (l <= n / 4) by lia. apply Nat.div_le_lower_bound; lia.
Qed.

(** * The coordinates *)
Lemma triangle_ok n : 1 <= n -> exists pts, triangle n = Some pts /\ length pts = (n + 1) * (n + 2) / 2 /\
  (forall i, i < length pts -> exists b, vtk_triangle i n = Some b /\ nth_error pts i = Some (from_barycentric n b)) /\
  (forall x y, x + y <= n -> In [INR x / INR n; INR y / INR n]%R pts).
Proof.
  intros Hn. destruct (triangle_bary_decode n) as (bs & E & L & H & C). unfold triangle. rewrite E.
  destruct (Nat.eqb_spec n 0); [lia|]. cbn [option_map]. eexists. split; [reflexivity|].
  rewrite map_length. split; [exact L|]. split.
  - intros i Hi. rewrite L in Hi. destruct (H i Hi) as (x & y & z & Ni & _ & V & _). exists [y; z; x].
    split; [exact (V n 0 (le_n n))|]. rewrite nth_error_map, Ni. cbn [option_map nth from_barycentric removelast map].
    unfold from_barycentric. cbn [removelast map]. f_equal. f_equal; [unfold Rdiv; ring|]. f_equal. unfold Rdiv; ring.
  - intros x y Sum. destruct (C (n - x - y) x y) as (i & Hi & Ni); [lia|].
    apply nth_error_In in Ni. apply in_map_iff. eexists. split; [|exact Ni]. cbn [nth].
    f_equal; [unfold Rdiv; ring|]. f_equal. unfold Rdiv; ring.
Qed.
Lemma tetrahedron_ok n : 1 <= n -> exists pts, tetrahedron n = Some pts /\ length pts = (n + 1) * (n + 2) * (n + 3) / 6 /\
  (forall i, i < length pts -> exists b, vtk_tetrahedron i n = Some b /\ nth_error pts i = Some (from_barycentric n b)) /\
  (forall x y z, x + y + z <= n -> In [INR x / INR n; INR y / INR n; INR z / INR n]%R pts).
Proof.
  intros Hn. destruct (tetrahedron_bary_decode n) as (bs & E & L & H & C). unfold tetrahedron. rewrite E.
  destruct (Nat.eqb_spec n 0); [lia|]. cbn [option_map]. eexists. split; [reflexivity|].
  rewrite map_length. split; [exact L|]. split.
  - intros i Hi. rewrite L in Hi. destruct (H i Hi) as (w & x & y & z & Ni & _ & V). exists [x; y; z; w].
    split; [exact V|]. rewrite nth_error_map, Ni. cbn [option_map nth].
    unfold from_barycentric. cbn [removelast map]. f_equal. f_equal; [unfold Rdiv; ring|]. f_equal; [unfold Rdiv; ring|]. f_equal. unfold Rdiv; ring.
  - intros x y z Sum. specialize (C (n - x - y - z) x y z ltac:(lia)).
    apply in_map_iff. eexists. split; [|exact C]. cbn [nth].
    f_equal; [unfold Rdiv; ring|]. f_equal; [unfold Rdiv; ring|]. f_equal. unfold Rdiv; ring.
Qed.
