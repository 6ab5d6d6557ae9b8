(** Fixed point interval arithmetic, used to bound the moments of the quadrature rules. *)
From Coq Require Import List Arith NArith ZArith Reals Lra Lia Bool.
From Verif Require Import RefGeometry_model Quadrature_model Quadrature_spec QuadIntegral_proofs.
Import ListNotations.
Local Open Scope R_scope.

Definition bits : Z := 58.
Definition scale : Z := Z.shiftl 1 bits.
Definition itv := (Z * Z)%type.
Definition inside (i : itv) (x : R) : Prop := IZR (fst i) <= x * IZR scale <= IZR (snd i).

Lemma scale_pos : 0 < IZR scale.
Proof. apply IZR_lt. reflexivity. Qed.

Local Open Scope Z_scope.
Definition addI (i j : itv) : itv := (fst i + fst j, snd i + snd j).
Definition negI (i : itv) : itv := (- snd i, - fst i).
Definition floorI (z : Z) : Z := Z.shiftr z bits.
Definition mulI (i j : itv) : itv :=
  if ((0 <=? fst i) && (0 <=? fst j))%bool then (floorI (fst i * fst j), floorI (snd i * snd j) + 1)
  else
  let a := fst i * fst j in let b := fst i * snd j in
  let c := snd i * fst j in let d := snd i * snd j in
  (floorI (Z.min (Z.min a b) (Z.min c d)), floorI (Z.max (Z.max a b) (Z.max c d)) + 1).
Definition fracI (n d : Z) : itv := let q := n * scale / d in (q, if q * d =? n * scale then q else q + 1).
Definition invI (i : itv) : option itv :=
  if 0 <? fst i then Some (scale * scale / snd i, scale * scale / fst i + 1) else None.
Definition sqrtI (i : itv) : option itv :=
  if 0 <=? fst i then Some (Z.sqrt (fst i * scale), Z.sqrt (snd i * scale) + 1) else None.
Fixpoint numI (n : num) : option itv :=
  match n with
  | Lit m e => Some (if (e =? 0)%nat then (m * scale, m * scale) else fracI m (10 ^ Z.of_nat e))
  | Neg a => option_map negI (numI a)
  | Add a b => match numI a, numI b with Some i, Some j => Some (addI i j) | _, _ => None end
  | Sub a b => match numI a, numI b with Some i, Some j => Some (addI i (negI j)) | _, _ => None end
  | Mul a b => match numI a, numI b with Some i, Some j => Some (mulI i j) | _, _ => None end
  | Div a b => match numI a, numI b with
               | Some i, Some j => match invI j with Some k => Some (mulI i k) | None => None end
               | _, _ => None
               end
  | Sqrt a => match numI a with Some i => sqrtI i | None => None end
  end.
Local Close Scope Z_scope.

Lemma addI_ok : forall i j x y, inside i x -> inside j y -> inside (addI i j) (x + y).
Proof. intros [a b] [c d] x y. unfold inside; simpl. rewrite !plus_IZR. lra. Qed.

Lemma negI_ok : forall i x, inside i x -> inside (negI i) (- x).
Proof. intros [a b] x. unfold inside; simpl. rewrite !opp_IZR. lra. Qed.

Lemma scale_pow : scale = (2 ^ bits)%Z.
Proof. reflexivity. Qed.

Lemma floorI_ok : forall z, IZR (floorI z) * IZR scale <= IZR z.
Proof.
  intro z. unfold floorI. rewrite Z.shiftr_div_pow2 by (unfold bits; lia). rewrite <- scale_pow, <- mult_IZR.
  apply IZR_le. rewrite Z.mul_comm. apply Z.mul_div_le. reflexivity.
Qed.
Lemma ceilI_ok : forall z, IZR z <= IZR (floorI z + 1) * IZR scale.
Proof.
  intro z. unfold floorI. rewrite Z.shiftr_div_pow2 by (unfold bits; lia). rewrite <- scale_pow, <- mult_IZR.
  apply IZR_le. assert (H := Z.mul_succ_div_gt z scale eq_refl). unfold Z.succ in H. lia.
Qed.

Lemma corner_low : forall l1 h1 l2 h2 m x y, l1 <= x <= h1 -> l2 <= y <= h2 ->
  m <= l1 * l2 -> m <= l1 * h2 -> m <= h1 * l2 -> m <= h1 * h2 -> m <= x * y.
Proof.
  intros l1 h1 l2 h2 m x y Hx Hy A B C D.
  assert (forall t, l2 <= t <= h2 -> forall u v, m <= u * l2 + v -> m <= u * h2 + v -> m <= u * t + v) as L.
  { intros t Ht u v P Q. destruct (Rle_dec 0 u) as [Hu|Hu].
    - apply Rle_trans with (u * l2 + v); [assumption|]. apply Rplus_le_compat_r, Rmult_le_compat_l; lra.
    - apply Rle_trans with (u * h2 + v); [assumption|]. apply Rplus_le_compat_r. apply Rmult_le_compat_neg_l; lra. }
  assert (P : m <= l1 * y) by (specialize (L y Hy l1 0); lra).
  assert (Q : m <= h1 * y) by (specialize (L y Hy h1 0); lra).
  destruct (Rle_dec 0 y) as [Hu|Hu].
  - apply Rle_trans with (l1 * y); [assumption|]. apply Rmult_le_compat_r; lra.
  - apply Rle_trans with (h1 * y); [assumption|].
    rewrite (Rmult_comm h1), (Rmult_comm x). apply Rmult_le_compat_neg_l; lra.
Qed.

Lemma corner_high : forall l1 h1 l2 h2 m x y, l1 <= x <= h1 -> l2 <= y <= h2 ->
  l1 * l2 <= m -> l1 * h2 <= m -> h1 * l2 <= m -> h1 * h2 <= m -> x * y <= m.
Proof.
  intros l1 h1 l2 h2 m x y Hx Hy A B C D.
  assert (- m <= (- x) * y); [|lra].
  apply (corner_low (- h1) (- l1) l2 h2); lra.
Qed.

Lemma mulI_ok : forall i j x y, inside i x -> inside j y -> inside (mulI i j) (x * y).
Proof.
  intros [a b] [c d] x y Hx Hy. unfold inside, mulI in *; cbn [fst snd] in *. assert (S := scale_pos).
  destruct ((0 <=? a)%Z && (0 <=? c)%Z) eqn:E; cbn [fst snd].
  - apply andb_true_iff in E. destruct E as [A C]. apply Z.leb_le, IZR_le in A. apply Z.leb_le, IZR_le in C.
    assert (L : IZR (a * c) <= (x * IZR scale) * (y * IZR scale)).
    { rewrite mult_IZR. apply Rmult_le_compat; lra. }
    assert (H : (x * IZR scale) * (y * IZR scale) <= IZR (b * d)).
    { rewrite mult_IZR. apply Rmult_le_compat; lra. }
    assert (F := floorI_ok (a * c)). assert (G := ceilI_ok (b * d)).
    split; apply Rmult_le_reg_r with (IZR scale); try assumption; lra.
  - clear E. set (lo := Z.min (Z.min (a * c) (a * d)) (Z.min (b * c) (b * d))).
    set (hi := Z.max (Z.max (a * c) (a * d)) (Z.max (b * c) (b * d))).
    assert (L : IZR lo <= (x * IZR scale) * (y * IZR scale)).
    { apply (corner_low (IZR a) (IZR b) (IZR c) (IZR d)); auto; rewrite <- mult_IZR; apply IZR_le; unfold lo; lia. }
    assert (H : (x * IZR scale) * (y * IZR scale) <= IZR hi).
    { apply (corner_high (IZR a) (IZR b) (IZR c) (IZR d)); auto; rewrite <- mult_IZR; apply IZR_le; unfold hi; lia. }
    assert (F := floorI_ok lo). assert (C := ceilI_ok hi).
    split; apply Rmult_le_reg_r with (IZR scale); try assumption; lra.
Qed.

Lemma fracI_ok : forall n d, (0 < d)%Z -> inside (fracI n d) (IZR n / IZR d).
Proof.
  intros n d Hd. unfold inside, fracI; cbn [fst snd].
  assert (D : 0 < IZR d) by (apply IZR_lt; assumption).
  replace (IZR n / IZR d * IZR scale) with (IZR (n * scale) / IZR d) by (rewrite mult_IZR; field; lra).
  set (m := (n * scale)%Z). assert (E := Z.div_mod m d ltac:(lia)). assert (M := Z.mod_pos_bound m d Hd).
  split; apply Rmult_le_reg_r with (IZR d); try assumption; unfold Rdiv; rewrite Rmult_assoc, Rinv_l, Rmult_1_r by lra;
    rewrite <- mult_IZR; apply IZR_le; [|destruct (Z.eqb_spec (m / d * d) m)]; nia.
Qed.

Lemma invI_ok : forall i k x, inside i x -> invI i = Some k -> inside k (/ x).
Proof.
  intros [a b] k x [L H] E. unfold invI in E; cbn [fst snd] in *.
  destruct (0 <? a)%Z eqn:Ea; [|discriminate]. apply Z.ltb_lt in Ea. inversion E; subst k; clear E.
  assert (S := scale_pos). assert (A : 0 < IZR a) by (apply IZR_lt; assumption).
  assert (X : 0 < x) by (apply Rmult_lt_reg_r with (IZR scale); lra).
  assert (Hb : (0 < b)%Z) by (apply lt_IZR; lra).
  unfold inside; cbn [fst snd].
  assert (E1 := Z.div_mod (scale * scale) b ltac:(lia)). assert (M1 := Z.mod_pos_bound (scale * scale) b Hb).
  assert (E2 := Z.div_mod (scale * scale) a ltac:(lia)). assert (M2 := Z.mod_pos_bound (scale * scale) a Ea).
  set (p := (scale * scale / b)%Z) in *. set (q := (scale * scale / a)%Z) in *.
  assert (P0 : (0 <= p)%Z) by (apply Z.div_pos; [apply Z.square_nonneg|assumption]).
  assert (P : IZR p * IZR b <= IZR scale * IZR scale) by (rewrite <- !mult_IZR; apply IZR_le; nia).
  assert (Q : IZR scale * IZR scale <= IZR (q + 1) * IZR a) by (rewrite <- !mult_IZR; apply IZR_le; nia).
  assert (P0' : 0 <= IZR p) by (apply IZR_le; assumption).
  split; apply Rmult_le_reg_r with (x * IZR scale); try (apply Rmult_lt_0_compat; assumption);
    replace (/ x * IZR scale * (x * IZR scale)) with (IZR scale * IZR scale) by (field; lra).
  - apply Rle_trans with (IZR p * IZR b); [|assumption]. apply Rmult_le_compat_l; assumption.
  - apply Rle_trans with (IZR (q + 1) * IZR a); [assumption|]. apply Rmult_le_compat_l; [|assumption].
    destruct (Rle_dec 0 (IZR (q + 1))) as [W|W]; [assumption|].
    assert (0 < IZR scale * IZR scale) by (apply Rmult_lt_0_compat; assumption).
    assert (IZR (q + 1) * IZR a <= 0 * IZR a) by (apply Rmult_le_compat_r; lra). lra.
Qed.

Lemma sqrtI_ok : forall i k x, inside i x -> sqrtI i = Some k -> inside k (sqrt x).
Proof.
  intros [a b] k x [L H] E. unfold sqrtI in E; cbn [fst snd] in *.
  destruct (0 <=? a)%Z eqn:Ea; [|discriminate]. apply Z.leb_le in Ea. inversion E; subst k; clear E.
  assert (S := scale_pos). assert (A : 0 <= IZR a) by (apply IZR_le; assumption).
  assert (X : 0 <= x). { apply Rmult_le_reg_r with (IZR scale); lra. }
  assert (Hb : (0 <= b)%Z) by (apply le_IZR; lra).
  unfold inside; cbn [fst snd].
  assert (S0 : (0 < scale)%Z) by reflexivity.
  assert (R1 := Z.sqrt_spec (a * scale) ltac:(nia)). assert (R2 := Z.sqrt_spec (b * scale) ltac:(nia)).
  assert (N1 := Z.sqrt_nonneg (a * scale)). assert (N2 := Z.sqrt_nonneg (b * scale)).
  set (p := Z.sqrt (a * scale)) in *. set (q := Z.sqrt (b * scale)) in *.
  assert (Y := sqrt_pos x). assert (Y2 := sqrt_sqrt x X).
  assert (W : (sqrt x * IZR scale) * (sqrt x * IZR scale) = x * IZR scale * IZR scale).
  { rewrite <- Y2 at 3. ring. }
  split.
  - apply Rnot_lt_le. intro C.
    assert (D : (sqrt x * IZR scale) * (sqrt x * IZR scale) < IZR p * IZR p).
    { apply Rmult_le_0_lt_compat; try assumption; apply Rmult_le_pos; lra. }
    rewrite W in D. assert (IZR p * IZR p <= IZR a * IZR scale) by (rewrite <- !mult_IZR; apply IZR_le; apply R1).
    assert (IZR a * IZR scale <= x * IZR scale * IZR scale) by (apply Rmult_le_compat_r; lra). lra.
  - apply Rnot_lt_le. intro C.
    assert (D : IZR (q + 1) * IZR (q + 1) < (sqrt x * IZR scale) * (sqrt x * IZR scale)).
    { apply Rmult_le_0_lt_compat; try assumption; apply IZR_le; lia. }
    rewrite W in D. assert (IZR b * IZR scale <= IZR (q + 1) * IZR (q + 1)) by (rewrite <- !mult_IZR; apply IZR_le; unfold Z.succ in R2; apply Z.lt_le_incl, R2).
    assert (x * IZR scale * IZR scale <= IZR b * IZR scale) by (apply Rmult_le_compat_r; lra). lra.
Qed.

Lemma numI_ok : forall n i, numI n = Some i -> inside i (value n).
Proof.
  induction n as [m e|a IHa|a IHa b IHb|a IHa b IHb|a IHa b IHb|a IHa b IHb|a IHa]; cbn [numI value]; intros i E.
  - inversion E; subst; clear E. destruct (Nat.eqb_spec e 0) as [->|N].
    + unfold inside; cbn [fst snd]. rewrite mult_IZR. simpl pow. unfold Rdiv. rewrite Rinv_1. lra.
    + replace (10 ^ e) with (IZR (10 ^ Z.of_nat e)).
      * apply fracI_ok. apply Z.pow_pos_nonneg; lia.
      * rewrite <- pow_IZR. reflexivity.
  - destruct (numI a) as [u|]; [|discriminate]. inversion E. apply negI_ok; auto.
  - destruct (numI a) as [u|]; [|discriminate]. destruct (numI b) as [v|]; [|discriminate]. inversion E. apply addI_ok; auto.
  - destruct (numI a) as [u|]; [|discriminate]. destruct (numI b) as [v|]; [|discriminate]. inversion E.
    apply addI_ok; auto. apply negI_ok; auto.
  - destruct (numI a) as [u|]; [|discriminate]. destruct (numI b) as [v|]; [|discriminate]. inversion E. apply mulI_ok; auto.
  - destruct (numI a) as [u|]; [|discriminate]. destruct (numI b) as [v|]; [|discriminate].
    destruct (invI v) as [k|] eqn:K; [|discriminate]. inversion E. apply mulI_ok; auto. eapply invI_ok; eauto.
  - destruct (numI a) as [u|]; [|discriminate]. eapply sqrtI_ok; eauto.
Qed.
