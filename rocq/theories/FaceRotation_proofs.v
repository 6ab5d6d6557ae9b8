(** Proofs about the rotation between the two sides of a face. *)
From Coq Require Import List Arith Bool Lia Reals Lra.
From Verif Require Import Matrix_model Matrix_spec Determinant_model Determinant_spec RefGeometry_model RefGeometry_spec RefGeometry_proofs
  Curvilinear_model PhysMapping_model PhysMapping_spec PhysMapping_proofs PhysInverse_proofs
  Transformation_model Transformation_spec Transformation_proofs FaceRotation_model FaceRotation_spec.
Import ListNotations.
Local Open Scope R_scope.

Ltac two_or_three d := destruct d as [|[|[|[|d]]]]; try (exfalso; lia).

(** ** The matrices of directions *)
Definition dir (pts : list point) (i j : nat) : R := coord pts (i + 1) j - coord pts 0 j.
Definition wedge (d : nat) (pts : list point) (j : nat) : R :=
  match d with
  | 2%nat => match j with O => - dir pts 0 1 | _ => dir pts 0 0 end
  | _ => match j with
         | O => dir pts 0 1 * dir pts 1 2 - dir pts 0 2 * dir pts 1 1
         | S O => dir pts 1 0 * dir pts 0 2 - dir pts 0 0 * dir pts 1 2
         | _ => dir pts 0 0 * dir pts 1 1 - dir pts 0 1 * dir pts 1 0
         end
  end.
Definition dirs (d : nat) (pts : list point) (i j : nat) : R := if (i <? d - 1)%nat then dir pts i j else wedge d pts j.

Lemma directions_ok : forall d pts, (2 <= d <= 3)%nat -> computeDirectionVectors d pts = Some (matrix_of (dirs d pts) d).
Proof.
  intros d pts H. two_or_three d; unfold computeDirectionVectors, matrix_of, matrix_by; cbn; unfold dirs, wedge, dir; cbn; reflexivity.
Qed.

Lemma images_points : forall d m pts, (2 <= d <= 3)%nat -> images d m pts -> face_points d m = Some pts.
Proof.
  intros d m pts H [L I]. unfold face_points. two_or_three d.
  - destruct pts as [|a [|b [|]]]; try discriminate L.
    destruct (I 0%nat ltac:(lia)) as [A LA]. destruct (I 1%nat ltac:(lia)) as [B LB]. cbn in A, B, LA, LB.
    cbn. rewrite A, B, LA, LB. reflexivity.
  - destruct pts as [|a [|b [|c [|]]]]; try discriminate L.
    destruct (I 0%nat ltac:(lia)) as [A LA]. destruct (I 1%nat ltac:(lia)) as [B LB]. destruct (I 2%nat ltac:(lia)) as [C LC].
    cbn in A, B, C, LA, LB, LC. cbn. rewrite A, B, C, LA, LB, LC. reflexivity.
Qed.

Definition gram (d : nat) (pts : list point) (i j : nat) : R := total d (fun k => dirs d pts i k * dirs d pts j k).

Lemma total_2 : forall a, total 2 a = a 0%nat + a 1%nat.
Proof. intros. rewrite !total_S, total_0. ring. Qed.
Lemma total_3 : forall a, total 3 a = a 0%nat + a 1%nat + a 2%nat.
Proof. intros. rewrite !total_S, total_0. ring. Qed.

Lemma distance_dir : forall d pts i, distance_squared d (nth (i + 1) pts []) (nth 0 pts []) = total d (fun k => dir pts i k * dir pts i k).
Proof. reflexivity. Qed.
Lemma distance_dirs : forall d pts i j, distance_squared d (nth (i + 1) pts []) (nth (j + 1) pts []) =
  total d (fun k => (dir pts i k - dir pts j k) * (dir pts i k - dir pts j k)).
Proof.
  intros. unfold distance_squared. apply total_ext. intros k _. cbv beta. unfold dir, coord, point. ring.
Qed.

Lemma gram_congruent : forall d lp rp i j, (2 <= d <= 3)%nat -> congruent d lp rp -> (i < d)%nat -> (j < d)%nat ->
  gram d lp i j = gram d rp i j.
Proof.
  intros d lp rp i j H C Hi Hj. unfold gram. two_or_three d.
  - assert (E := C 1%nat 0%nat ltac:(lia) ltac:(lia)).
    change (nth 1 lp []) with (nth (0 + 1) lp []) in E. change (nth 1 rp []) with (nth (0 + 1) rp []) in E.
    rewrite !distance_dir in E. rewrite !total_2 in E |- *.
    enum 2%nat i; try lia; enum 2%nat j; try lia; cbn [dirs Nat.ltb Nat.leb Nat.sub wedge]; unfold dirs; cbn [Nat.ltb Nat.leb Nat.sub wedge];
      first [ring|lra].
  - assert (E1 := C 1%nat 0%nat ltac:(lia) ltac:(lia)). assert (E2 := C 2%nat 0%nat ltac:(lia) ltac:(lia)).
    assert (E3 := C 1%nat 2%nat ltac:(lia) ltac:(lia)).
    change (nth 1 lp []) with (nth (0 + 1) lp []) in E1, E3. change (nth 1 rp []) with (nth (0 + 1) rp []) in E1, E3.
    change (nth 2 lp []) with (nth (1 + 1) lp []) in E2, E3. change (nth 2 rp []) with (nth (1 + 1) rp []) in E2, E3.
    rewrite distance_dirs in E3. rewrite (distance_dirs 3 rp) in E3. rewrite !distance_dir in E1, E2. rewrite !total_3 in E1, E2, E3 |- *.
    assert (E4 : dir lp 0 0 * dir lp 1 0 + dir lp 0 1 * dir lp 1 1 + dir lp 0 2 * dir lp 1 2 =
                 dir rp 0 0 * dir rp 1 0 + dir rp 0 1 * dir rp 1 1 + dir rp 0 2 * dir rp 1 2) by lra.
    enum 3%nat i; try lia; enum 3%nat j; try lia; unfold dirs; cbn [Nat.ltb Nat.leb Nat.sub wedge]; try ring; try lra.
    assert (L : forall a b c x y z, (b * z - c * y) * (b * z - c * y) + (x * c - a * z) * (x * c - a * z) + (a * y - b * x) * (a * y - b * x) =
      (a * a + b * b + c * c) * (x * x + y * y + z * z) - (a * x + b * y + c * z) * (a * x + b * y + c * z)) by (intros; cbv beta; ring).
    rewrite !L, E1, E2, E4. reflexivity.
Qed.

Lemma det_dirs : forall d pts, (2 <= d <= 3)%nat -> det d (dirs d pts) = gram d pts (d - 1) (d - 1).
Proof.
  intros d pts H. unfold gram. two_or_three d; cbn [Nat.sub]; rewrite ?total_2, ?total_3; cbn; unfold dirs, wedge; cbn; ring.
Qed.

Lemma three_squares : forall a b c, a * a + b * b + c * c = 0 -> a = 0 /\ b = 0 /\ c = 0.
Proof.
  intros a b c E. assert (A := Rle_0_sqr a). assert (B := Rle_0_sqr b). assert (C := Rle_0_sqr c). unfold Rsqr in *.
  assert (forall x, x * x = 0 -> x = 0) as Z by (intros x Hx; apply Rmult_integral in Hx; tauto).
  split; [|split]; apply Z; lra.
Qed.

Lemma proper_det : forall d pts, (2 <= d <= 3)%nat -> proper d pts -> det d (dirs d pts) <> 0.
Proof.
  intros d pts H P E. rewrite det_dirs in E by exact H. unfold gram in E. unfold proper in P. two_or_three d.
  - rewrite total_2 in E. unfold dirs in E. cbn [Nat.ltb Nat.leb Nat.sub wedge] in E.
    assert (Ex : dir pts 0 0 = 0) by nra. assert (Ey : dir pts 0 1 = 0) by nra.
    enough (F : 1 = 0) by lra. apply (P (fun _ => 1)) with (i := 0%nat); [|lia].
    intros k Hk. cbn [Nat.sub]. rewrite total_S, total_0. unfold dir, coord, point in *. cbn [Nat.add] in *. enum 2%nat k; try lia; lra.
  - rewrite total_3 in E. unfold dirs in E. cbn [Nat.ltb Nat.leb Nat.sub wedge] in E.
    set (a := dir pts 0 0) in *. set (b := dir pts 0 1) in *. set (c := dir pts 0 2) in *.
    set (x := dir pts 1 0) in *. set (y := dir pts 1 1) in *. set (z := dir pts 1 2) in *.
    destruct (three_squares _ _ _ E) as (E1 & E2 & E3).
    assert (N : forall p q : R, (forall k, (k < 3)%nat -> p * dir pts 0 k + q * dir pts 1 k = 0) -> p = 0 /\ q = 0).
    { intros p q F. assert (G := P (fun i => match i with O => p | _ => q end)). split.
      - apply (G) with (i := 0%nat); [|cbn; lia]. intros k Hk. cbn [Nat.sub]. rewrite !total_S, total_0.
        assert (F' := F k Hk). unfold dir, coord in F'. cbn [Nat.add] in F'. cbv beta iota. unfold point in *. lra.
      - apply (G) with (i := 1%nat); [|cbn; lia]. intros k Hk. cbn [Nat.sub]. rewrite !total_S, total_0.
        assert (F' := F k Hk). unfold dir, coord in F'. cbn [Nat.add] in F'. cbv beta iota. unfold point in *. lra. }
    destruct (N (x * x + y * y + z * z) (- (a * x + b * y + c * z))) as [Nn _].
    { intros k Hk. enum 3%nat k; try lia; fold a b c x y z.
      - transitivity (- y * (- (a * y - b * x)) - z * (x * c - a * z)); [ring|]. rewrite E2, E3. ring.
      - transitivity (- (x * (a * y - b * x)) + z * (b * z - c * y)); [ring|]. rewrite E1, E3. ring.
      - transitivity (x * (x * c - a * z) - y * (b * z - c * y)); [ring|]. rewrite E1, E2. ring. }
    destruct (three_squares _ _ _ Nn) as (X0 & Y0 & Z0).
    destruct (N 0 1) as [_ F]; [|lra]. intros k Hk. enum 3%nat k; try lia; fold a b c x y z; rewrite ?X0, ?Y0, ?Z0; ring.
Qed.

(** ** Solving for the rotation *)
Lemma solve_exists : forall d A b, (2 <= d <= 3)%nat -> det d A <> 0 -> length b = d -> exists y, solve (matrix_of A d) b = Some y.
Proof.
  intros d A b Hd I L. unfold solve. rewrite rdet_matrix_of by lia. fold (det d A).
  destruct (Req_EM_T (det d A) 0); [contradiction|]. two_or_three d; points_of_dim; cbn; eexists; reflexivity.
Qed.

Lemma column_matrix : forall d B j, (2 <= d <= 3)%nat -> (j < d)%nat -> column (matrix_of B d) j = map (fun i => B i j) (seq 0 d).
Proof. intros d B j H Hj. two_or_three d; enum 3%nat j; try lia; reflexivity. Qed.

Lemma solve_matrix_ok : forall d A B, (2 <= d <= 3)%nat -> det d A <> 0 ->
  exists X, solve_matrix (matrix_of A d) (matrix_of B d) = Some (matrix_of X d) /\
    forall i j, (i < d)%nat -> (j < d)%nat -> B i j = total d (fun k => A i k * X k j).
Proof.
  intros d A B Hd N.
  assert (S : forall j, (j < d)%nat -> exists y, solve (matrix_of A d) (column (matrix_of B d) j) = Some y /\ length y = d /\
    map (fun i => B i j) (seq 0 d) = product d A y).
  { intros j Hj. rewrite column_matrix by assumption.
    assert (L : length (map (fun i => B i j) (seq 0 d)) = d) by (rewrite map_length, seq_length; reflexivity).
    destruct (solve_exists d A (map (fun i => B i j) (seq 0 d)) Hd N L) as [y Y]. exists y.
    split; [exact Y|]. apply (solve_solution d A); [lia|exact N|exact L|exact Y]. }
  destruct (finite_choice _ [] d _ S) as [f F]. exists (fun k j => nth k (f j) 0). split.
  - unfold solve_matrix. cbn [ncols nrows matrix_of].
    assert (F0 := F 0%nat ltac:(lia)). assert (F1 := F 1%nat ltac:(lia)). destruct F0 as (E0 & L0 & _). destruct F1 as (E1 & L1 & _).
    two_or_three d.
    + cbn [seq map vector_of]. rewrite E0, E1. unfold matrix_of. cbn [flat_map seq map app List.concat]. destruct (f 0%nat) as [|? [|? [|]]]; try discriminate L0. destruct (f 1%nat) as [|? [|? [|]]]; try discriminate L1. reflexivity.
    + destruct (F 2%nat ltac:(lia)) as (E2 & L2 & _). cbn [seq map vector_of]. rewrite E0, E1, E2. unfold matrix_of. cbn [flat_map seq map app List.concat].
      destruct (f 0%nat) as [|? [|? [|? [|]]]]; try discriminate L0. destruct (f 1%nat) as [|? [|? [|? [|]]]]; try discriminate L1.
      destruct (f 2%nat) as [|? [|? [|? [|]]]]; try discriminate L2. reflexivity.
  - intros i j Hi Hj. destruct (F j Hj) as (_ & _ & E). rewrite <- nth_product, <- E by exact Hi.
    two_or_three d; enum 3%nat i; try lia; reflexivity.
Qed.

Lemma injective : forall d A (y z : nat -> R), (2 <= d <= 3)%nat -> det d A <> 0 ->
  (forall i, (i < d)%nat -> total d (fun k => A i k * y k) = total d (fun k => A i k * z k)) ->
  forall k, (k < d)%nat -> y k = z k.
Proof.
  intros d A y z Hd N E k Hk.
  assert (G : forall w : nat -> R, solve (matrix_of A d) (map (fun i => total d (fun k => A i k * w k)) (seq 0 d)) = Some (map w (seq 0 d))).
  { intros w. rewrite <- (solve_product d A (map w (seq 0 d))) by (try lia; try assumption; rewrite map_length, seq_length; reflexivity).
    f_equal. unfold product. apply map_ext_in. intros i _. apply total_ext. intros j Hj. f_equal.
    two_or_three d; enum 3%nat j; try lia; reflexivity. }
  assert (S : Some (map y (seq 0 d)) = Some (map z (seq 0 d))).
  { rewrite <- (G y), <- (G z). f_equal. apply map_ext_in. intros i Hi. apply E. apply in_seq in Hi. lia. }
  injection S as S. assert (T := f_equal (fun l => nth k l 0) S). cbv beta in T. two_or_three d; enum 3%nat k; try lia; exact T.
Qed.

Lemma det_product : forall d A X B, (2 <= d <= 3)%nat ->
  (forall i j, (i < d)%nat -> (j < d)%nat -> B i j = total d (fun k => A i k * X k j)) -> det d B = det d A * det d X.
Proof.
  intros d A X B Hd E. two_or_three d.
  - assert (E' : forall i j, (i < 2)%nat -> (j < 2)%nat -> B i j = A i 0%nat * X 0%nat j + A i 1%nat * X 1%nat j)
      by (intros; rewrite E, total_2 by assumption; reflexivity).
    cbn. rewrite !E' by lia. ring.
  - assert (E' : forall i j, (i < 3)%nat -> (j < 3)%nat -> B i j = A i 0%nat * X 0%nat j + A i 1%nat * X 1%nat j + A i 2%nat * X 2%nat j)
      by (intros; rewrite E, total_3 by assumption; reflexivity).
    cbn. rewrite !E' by lia. ring.
Qed.

(** rows instead of columns *)
Lemma rows_columns : forall d Q, (2 <= d <= 3)%nat -> det d Q <> 0 ->
  (forall i j, (i < d)%nat -> (j < d)%nat -> total d (fun k => Q i k * Q j k) = kronecker i j) -> orthogonal d Q.
Proof.
  intros d Q Hd N E i j Hi Hj.
  (* Q (Q^T Q) = (Q Q^T) Q = Q *)
  refine (injective d Q (fun i => total d (fun k => Q k i * Q k j)) (fun i => kronecker i j) Hd N _ i Hi).
  clear i Hi. intros i Hi.
  transitivity (total d (fun l => total d (fun k => Q i k * Q l k) * Q l j)).
  - two_or_three d; rewrite ?total_2, ?total_3; ring.
  - rewrite (total_ext d _ (fun l => kronecker i l * Q l j)) by (intros l Hl; rewrite E by assumption; reflexivity).
    two_or_three d; rewrite ?total_2, ?total_3; enum 3%nat i; try lia; enum 3%nat j; try lia; cbn; ring.
Qed.

Lemma solution_rotation : forall d L Rt X, (2 <= d <= 3)%nat -> det d L <> 0 -> det d Rt = det d L ->
  (forall i j, (i < d)%nat -> (j < d)%nat -> total d (fun k => L i k * L j k) = total d (fun k => Rt i k * Rt j k)) ->
  (forall i j, (i < d)%nat -> (j < d)%nat -> Rt i j = total d (fun k => L i k * X k j)) ->
  is_rotation d X /\ forall i j, (i < d)%nat -> (j < d)%nat -> L i j = total d (fun k => X j k * Rt i k).
Proof.
  intros d L Rt X Hd N Dt G E.
  assert (D1 : det d X = 1).
  { assert (D := det_product d L X Rt Hd E). rewrite Dt in D. apply (Rmult_eq_reg_l (det d L)); [|exact N]. lra. }
  assert (M : forall i j k, (i < d)%nat -> (k < d)%nat -> (j < d)%nat -> True) by trivial. clear M.
  (* L (X X^T L^T) = L L^T *)
  assert (S1 : forall i j, (i < d)%nat -> (j < d)%nat -> total d (fun k => X j k * Rt i k) = L i j).
  { intros i j Hi Hj.
    refine (injective d L (fun j => total d (fun k => X j k * Rt i k)) (fun j => L i j) Hd N _ j Hj).
    clear j Hj. intros j Hj. cbv beta.
    transitivity (total d (fun k => total d (fun m => L j m * X m k) * Rt i k)).
    - two_or_three d; rewrite ?total_2, ?total_3; ring.
    - rewrite (total_ext d _ (fun k => Rt j k * Rt i k)) by (intros k Hk; rewrite <- E by assumption; reflexivity).
      symmetry. apply (G j i Hj Hi). }
  assert (S2 : forall i j, (i < d)%nat -> (j < d)%nat -> total d (fun k => X i k * X j k) = kronecker i j).
  { intros i j Hi Hj.
    refine (injective d L (fun j => total d (fun k => X i k * X j k)) (fun j => kronecker i j) Hd N _ j Hj).
    clear j Hj. intros j Hj. cbv beta.
    transitivity (total d (fun k => X i k * total d (fun m => L j m * X m k))).
    - two_or_three d; rewrite ?total_2, ?total_3; ring.
    - rewrite (total_ext d _ (fun k => X i k * Rt j k)) by (intros k Hk; rewrite <- E by assumption; reflexivity).
      rewrite S1 by assumption.
      two_or_three d; rewrite ?total_2, ?total_3; enum 3%nat i; try lia; cbn; ring. }
  split; [|intros; symmetry; apply S1; assumption].
  split; [|exact D1]. apply rows_columns; [exact Hd|rewrite D1; lra|exact S2].
Qed.

(** ** The decision *)
Lemma requires_list : forall d X, (2 <= d <= 3)%nat -> requires d (matrix_of X d) =
  Some (existsb (fun ij => if Rlt_dec (/ 10 ^ 8) (Rabs (X (fst ij) (snd ij) - kronecker (fst ij) (snd ij))) then true else false)
    (list_prod (seq 0 d) (seq 0 d))).
Proof. intros d X H. two_or_three d; reflexivity. Qed.

Lemma requires_true : forall d X, (2 <= d <= 3)%nat -> requires d (matrix_of X d) = Some true ->
  exists i j, (i < d)%nat /\ (j < d)%nat /\ / 10 ^ 8 < Rabs (X i j - kronecker i j).
Proof.
  intros d X H. rewrite requires_list by exact H. intros E. injection E as E. apply existsb_exists in E.
  destruct E as [[i j] [I E]]. apply in_prod_iff in I. rewrite !in_seq in I. exists i, j.
  split; [lia|]. split; [lia|]. cbn [fst snd] in E. destruct (Rlt_dec _ _) as [G|]; [exact G|discriminate E].
Qed.
Lemma requires_false : forall d X, (2 <= d <= 3)%nat -> requires d (matrix_of X d) = Some false ->
  forall i j, (i < d)%nat -> (j < d)%nat -> Rabs (X i j - kronecker i j) <= / 10 ^ 8.
Proof.
  intros d X H. rewrite requires_list by exact H. intros E i j Hi Hj.
  destruct (Rlt_dec (/ 10 ^ 8) (Rabs (X i j - kronecker i j))) as [G|G]; [|lra]. exfalso.
  assert (T : existsb (fun ij => if Rlt_dec (/ 10 ^ 8) (Rabs (X (fst ij) (snd ij) - kronecker (fst ij) (snd ij))) then true else false)
    (list_prod (seq 0 d) (seq 0 d)) = true); [|rewrite T in E; discriminate E].
  apply existsb_exists. exists (i, j). split; [apply in_prod; apply in_seq; lia|]. cbn [fst snd]. destruct (Rlt_dec _ _); [reflexivity|contradiction].
Qed.

Lemma norm_distance : forall d p q, (2 <= d <= 3)%nat -> length p = d -> length q = d -> norm_squared (vsub p q) = distance_squared d p q.
Proof.
  intros d p q H Lp Lq. unfold distance_squared. two_or_three d; points_of_dim; rewrite ?total_2, ?total_3; cbn; ring.
Qed.

Lemma identical_ok : forall d lp rp, (2 <= d <= 3)%nat ->
  (forall i, (i < d)%nat -> length (nth i lp []) = d) -> (forall i, (i < d)%nat -> length (nth i rp []) = d) ->
  (identical d lp rp = true <-> forall i, (i < d)%nat -> distance_squared d (nth i lp []) (nth i rp []) < / 10 ^ 24).
Proof.
  intros d lp rp H Ll Lr. unfold identical. rewrite forallb_forall. split.
  - intros F i Hi. assert (G := F i ltac:(apply in_seq; lia)). rewrite (norm_distance d) in G by auto.
    destruct (Rlt_dec _ _); [assumption|discriminate G].
  - intros F i I. apply in_seq in I. rewrite (norm_distance d) by (try apply Ll; try apply Lr; lia).
    destruct (Rlt_dec _ _) as [|G]; [reflexivity|]. exfalso. apply G, F. lia.
Qed.

Lemma kronecker_total : forall d i (f : nat -> R), (2 <= d <= 3)%nat -> (i < d)%nat -> total d (fun k => kronecker i k * f k) = f i.
Proof. intros d i f H Hi. two_or_three d; rewrite ?total_2, ?total_3; enum 3%nat i; try lia; cbn; ring. Qed.

(** the rotation takes the points on the right to those on the left *)
Lemma moves : forall d lp rp X, (2 <= d <= 3)%nat ->
  (forall i, (i < d)%nat -> length (nth i lp []) = d) ->
  (forall i j, (i < d)%nat -> (j < d)%nat -> dirs d lp i j = total d (fun k => X j k * dirs d rp i k)) ->
  forall i, (i < d)%nat -> to_left d X (nth 0 lp []) (nth 0 rp []) (nth i rp []) = nth i lp [].
Proof.
  intros d lp rp X H Ll E i Hi. unfold to_left.
  assert (P : forall k, (k < d)%nat -> nth k (nth 0 lp []) 0 + total d (fun m => X k m * (nth m (nth i rp []) 0 - nth m (nth 0 rp []) 0)) = nth k (nth i lp []) 0).
  { intros k Hk. destruct i as [|i].
    - rewrite (total_ext d _ (fun m => 0)) by (intros; cbv beta; ring). two_or_three d; rewrite ?total_2, ?total_3; ring.
    - assert (E' := E i k ltac:(lia) Hk). unfold dirs in E'. assert (B : (i <? d - 1)%nat = true) by (apply Nat.ltb_lt; lia).
      rewrite B in E'. unfold dir, coord, point in E'. rewrite Nat.add_1_r in E'. unfold point. rewrite <- E'. ring. }
  assert (Li := Ll i Hi). apply list_by_nth; [rewrite map_length, seq_length; symmetry; exact Li|].
  intros k Hk. rewrite map_length, seq_length in Hk.
  assert (M : forall f : nat -> R, nth k (map f (seq 0 d)) 0 = f k).
  { intros f. two_or_three d; enum 3%nat k; try lia; reflexivity. }
  rewrite M. apply P, Hk.
Qed.

Definition wanted (d : nat) (lp rp : list point) (Q : nat -> nat -> R) (o : option transformation_data) : Prop :=
  match o with
  | Some data => data = TransformationData (matrix_of Q d) (matrix_of (transposed Q) d) 1 /\
      exists i j, (i < d)%nat /\ (j < d)%nat /\ / 10 ^ 8 < Rabs (Q i j - kronecker i j)
  | None => (forall i, (i < d)%nat -> distance_squared d (nth i lp []) (nth i rp []) < / 10 ^ 24) \/
      forall i j, (i < d)%nat -> (j < d)%nat -> Rabs (Q i j - kronecker i j) <= / 10 ^ 8
  end.

Lemma small_positive : forall n, 0 < / 10 ^ n.
Proof. intros. apply Rinv_0_lt_compat, pow_lt. lra. Qed.

Lemma update_ok : forall d leftMap rightMap lp rp, (2 <= d <= 3)%nat ->
  images d leftMap lp -> images d rightMap rp -> congruent d lp rp -> proper d lp ->
  exists Q o, is_rotation d Q /\
    (forall i, (i < d)%nat -> to_left d Q (nth 0 lp []) (nth 0 rp []) (nth i rp []) = nth i lp []) /\
    updateLeftRightTransform d true leftMap rightMap = Some o /\ wanted d lp rp Q o.
Proof.
  intros d leftMap rightMap lp rp H Il Ir C P.
  assert (Ll : forall i, (i < d)%nat -> length (nth i lp []) = d) by (intros i Hi; apply (proj2 Il i Hi)).
  assert (Lr : forall i, (i < d)%nat -> length (nth i rp []) = d) by (intros i Hi; apply (proj2 Ir i Hi)).
  assert (N := proper_det d lp H P).
  destruct (solve_matrix_ok d (dirs d lp) (dirs d rp) H N) as [X [SX EX]].
  destruct (solution_rotation d (dirs d lp) (dirs d rp) X H N) as [Rot Mv].
  - rewrite !det_dirs by exact H. symmetry. apply gram_congruent; try assumption; lia.
  - intros i j Hi Hj. apply (gram_congruent d lp rp i j H C Hi Hj).
  - exact EX.
  - exists X. unfold updateLeftRightTransform. assert (B : (d =? 1)%nat = false) by (apply Nat.eqb_neq; lia). rewrite B. cbn [negb orb].
    rewrite (images_points d leftMap lp H Il), (images_points d rightMap rp H Ir).
    destruct (identical d lp rp) eqn:I.
    + exists None. split; [exact Rot|]. split; [apply (moves d lp rp X H Ll Mv)|]. split; [reflexivity|]. left.
      apply (identical_ok d lp rp H Ll Lr). exact I.
    + rewrite !directions_ok by exact H. rewrite SX.
      destruct (requires d (matrix_of X d)) as [[|]|] eqn:Rq.
      * rewrite rdet_matrix_of by lia. assert (D1 := proj2 Rot). unfold determinant_of in D1. rewrite D1.
        destruct (Rlt_dec _ _) as [|G].
        -- rewrite setJacobian_matrix by lia. eexists. split; [exact Rot|]. split; [apply (moves d lp rp X H Ll Mv)|].
           split; [reflexivity|]. split; [unfold det; rewrite D1; reflexivity|]. apply (requires_true d X H Rq).
        -- exfalso. apply G. rewrite Rminus_diag_eq, Rabs_R0 by reflexivity. apply small_positive.
      * exists None. split; [exact Rot|]. split; [apply (moves d lp rp X H Ll Mv)|]. split; [reflexivity|]. right.
        apply (requires_false d X H Rq).
      * rewrite requires_list in Rq by exact H. discriminate Rq.
Qed.
