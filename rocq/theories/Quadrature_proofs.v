(** Bounds for the moments of the quadrature rules. *)
From Coq Require Import List Arith NArith ZArith Reals Lra Lia Bool.
From Verif Require Import RefGeometry_model Quadrature_model Quadrature_spec QuadIntegral_proofs QuadInterval_proofs.
Import ListNotations.
Local Open Scope R_scope.

(** ** sums over the entries *)
Fixpoint esum (l : list (num * list num)) (f : point -> R) : R :=
  match l with
  | [] => 0
  | (w, p) :: l' => value w * f (map value p) + esum l' f
  end.

Lemma esum_app : forall l l' f, esum (l ++ l') f = esum l f + esum l' f.
Proof. intros l l' f. induction l as [|[w p] l IH]; simpl; [ring|]. rewrite IH. ring. Qed.

Lemma esum_ext : forall l f g, (forall p, f p = g p) -> esum l f = esum l g.
Proof. intros l f g H. induction l as [|[w p] l IH]; simpl; [reflexivity|]. rewrite IH, H. reflexivity. Qed.

Lemma esum_lin : forall l f g a b, esum l (fun p => a * f p + b * g p) = a * esum l f + b * esum l g.
Proof. intros l f g a b. induction l as [|[w p] l IH]; simpl; [ring|]. rewrite IH. ring. Qed.

Lemma partial_sum_ok : forall r f n, getNumberOfPoints r = length (entries r) -> (n <= length (entries r))%nat ->
  partial_sum r f n = Some (esum (firstn n (entries r)) f).
Proof.
  intros r f n E. induction n as [|n IH]; intros L; [reflexivity|].
  simpl partial_sum. rewrite IH by lia. unfold weight, getPoint. rewrite E.
  assert (X : (n <? length (entries r))%nat = true) by (apply Nat.ltb_lt; lia). rewrite X.
  destruct (nth_error (entries r) n) as [[w p]|] eqn:N; [|apply nth_error_None in N; lia].
  assert (F : firstn (S n) (entries r) = firstn n (entries r) ++ [(w, p)]).
  { clear - N. revert n N. generalize (entries r). induction l as [|x l IH]; intros [|n] H; simpl in *; try discriminate.
    - inversion H. reflexivity.
    - f_equal. apply IH. assumption. }
  simpl option_map. cbv iota beta. f_equal. rewrite F, esum_app. simpl. ring.
Qed.

Lemma quadrature_ok : forall r f, getNumberOfPoints r = length (entries r) -> quadrature r f = Some (esum (entries r) f).
Proof.
  intros r f E. unfold quadrature. rewrite partial_sum_ok by (auto; lia). rewrite E, firstn_all. reflexivity.
Qed.

(** ** from monomials to polynomials *)
Lemma poly_bound : forall l s tol (A : list nat -> Prop),
  (forall e, A e -> Rabs (esum l (monomial e) - monomial_integral s e) <= tol) ->
  forall q, Forall (fun t => A (snd t)) q -> Rabs (esum l (peval q) - pintegral s q) <= tol * size q.
Proof.
  intros l s tol A H q. induction q as [|[c e] q IH]; intros F.
  - simpl. replace (esum l (fun _ => 0)) with 0.
    + rewrite Rminus_0_r, Rabs_R0. lra.
    + symmetry. clear. induction l as [|[w p] l IH]; simpl; [reflexivity|]. rewrite IH. ring.
  - inversion F; subst. simpl.
    assert (E : esum l (fun p => c * monomial e p + peval q p) = c * esum l (monomial e) + 1 * esum l (peval q)).
    { rewrite <- esum_lin. apply esum_ext. intros p. ring. }
    rewrite E.
    replace (c * esum l (monomial e) + 1 * esum l (peval q) - (c * monomial_integral s e + pintegral s q))
      with (c * (esum l (monomial e) - monomial_integral s e) + (esum l (peval q) - pintegral s q)) by ring.
    eapply Rle_trans; [apply Rabs_triang|]. rewrite Rabs_mult, Rmult_plus_distr_l.
    apply Rplus_le_compat; [|auto].
    rewrite (Rmult_comm tol). apply Rmult_le_compat_l; [apply Rabs_pos|]. auto.
Qed.

(** ** enumeration of the exponents *)
Fixpoint box (d k : nat) : list (list nat) :=
  match d with
  | O => [[]]
  | S d' => flat_map (fun a => map (cons a) (box d' k)) (seq 0 (S k))
  end.
Fixpoint simplex (d k : nat) : list (list nat) :=
  match d with
  | O => [[]]
  | S d' => flat_map (fun a => map (cons a) (simplex d' (k - a))) (seq 0 (S k))
  end.

Lemma box_in : forall d k e, length e = d -> Forall (fun a => (a <= k)%nat) e -> In e (box d k).
Proof.
  induction d as [|d IH]; intros k e L F; destruct e as [|a e]; try discriminate.
  - left. reflexivity.
  - inversion F; subst. cbn [box]. apply in_flat_map. exists a. split; [apply in_seq; lia|].
    apply in_map. apply IH; auto.
Qed.
Lemma simplex_in : forall d k e, length e = d -> (list_sum e <= k)%nat -> In e (simplex d k).
Proof.
  induction d as [|d IH]; intros k e L F; destruct e as [|a e]; try discriminate.
  - left. reflexivity.
  - unfold list_sum in F. simpl in F. fold (list_sum e) in F. cbn [simplex]. apply in_flat_map. exists a. split; [apply in_seq; lia|].
    apply in_map. apply IH; auto. lia.
Qed.

Definition exponents (s : shape) (k : nat) : list (list nat) :=
  match s with
  | Line | Square | Cube | Hypercube => box (dimension s) k
  | _ => simplex (dimension s) k
  end.

Lemma exponents_in : forall s k e, monomial_of_degree s (N.of_nat k) e -> In e (exponents s k).
Proof.
  intros s k e [L D]. destruct s; cbn [exponents]; cbv iota in D;
    first [ apply box_in; [exact L|eapply Forall_impl; [|exact D]; intros a Ha; cbv beta in Ha; lia]
          | apply simplex_in; [exact L|lia] ].
Qed.

(** ** the integrals as fractions *)
Fixpoint zfact (n : nat) : Z := match n with O => 1 | S m => Z.of_nat n * zfact m end.
Lemma zfact_ok : forall n, IZR (zfact n) = FR n.
Proof.
  induction n as [|n IH]; [reflexivity|]. rewrite FR_S, <- IH.
  change (zfact (S n)) with (Z.of_nat (S n) * zfact n)%Z. rewrite mult_IZR, <- INR_IZR_INZ. reflexivity.
Qed.
Lemma zfact_pos : forall n, (0 < zfact n)%Z.
Proof. induction n as [|n IH]; [reflexivity|]. change (zfact (S n)) with (Z.of_nat (S n) * zfact n)%Z. lia. Qed.

Definition frac := (Z * Z)%type.
Definition fval (f : frac) : R := IZR (fst f) / IZR (snd f).
Definition fmul (f g : frac) : frac := (fst f * fst g, snd f * snd g)%Z.
Definition evenF (n : nat) : frac := (if Nat.even n then 2 else 0, Z.of_nat (S n))%Z.
Definition integralF (s : shape) (e : list nat) : frac :=
  match s, e with
  | Line, [a] => evenF a
  | Square, [a; b] => fmul (evenF a) (evenF b)
  | Cube, [a; b; c] => fmul (fmul (evenF a) (evenF b)) (evenF c)
  | Hypercube, [a; b; c; d] => fmul (fmul (fmul (evenF a) (evenF b)) (evenF c)) (evenF d)
  | Triangle, [a; b] => (zfact a * zfact b, zfact (a + b + 2))%Z
  | Tetrahedron, [a; b; c] => (zfact a * zfact b * zfact c, zfact (a + b + c + 3))%Z
  | TriangularPrism, [a; b; c] => fmul (zfact a * zfact b, zfact (a + b + 2))%Z (evenF c)
  | Pyramid, [a; b; c] => fmul (fmul (evenF a) (evenF b)) (zfact c * zfact (a + b + 2), zfact (c + (a + b + 2) + 1))%Z
  | _, _ => (1, 1)%Z
  end.

Lemma evenF_ok : forall n, fval (evenF n) = even_moment n /\ (0 < snd (evenF n))%Z.
Proof.
  intro n. unfold fval, evenF, even_moment; cbn [fst snd]. split; [|lia].
  rewrite <- INR_IZR_INZ. destruct (Nat.even n); [reflexivity|]. field. apply not_0_INR. discriminate.
Qed.
Lemma fmul_ok : forall f g u v, fval f = u /\ (0 < snd f)%Z -> fval g = v /\ (0 < snd g)%Z ->
  fval (fmul f g) = u * v /\ (0 < snd (fmul f g))%Z.
Proof.
  intros [a b] [c d] u v [<- B] [<- D]. unfold fval, fmul in *; cbn [fst snd] in *. split; [|lia].
  rewrite !mult_IZR. assert (IZR b <> 0) by (apply not_0_IZR; lia). assert (IZR d <> 0) by (apply not_0_IZR; lia).
  field. auto.
Qed.

Lemma integralF_ok : forall s e, fval (integralF s e) = monomial_integral s e /\ (0 < snd (integralF s e))%Z.
Proof.
  intros s e. destruct s;
    repeat match goal with |- context [match ?l with [] => _ | _ :: _ => _ end] => destruct l | _ => progress (unfold integralF, monomial_integral) end;
    try (unfold fval; simpl; split; [field|reflexivity]);
    repeat first [apply evenF_ok | apply fmul_ok];
    unfold fval, simplex2, simplex3, beta; cbn [fst snd]; rewrite ?mult_IZR, !zfact_ok; split; try reflexivity; apply zfact_pos.
Qed.

(** ** moments in interval arithmetic *)
Definition oneI : itv := (scale, scale).
Lemma oneI_ok : inside oneI 1.
Proof. unfold inside, oneI; cbn [fst snd]. lra. Qed.

(** an entry: an interval for the weight times a monomial and intervals for the remaining coordinates *)
Definition state := list (itv * list itv).
Definition rstate := list (R * list R).
Definition holds (e : itv * list itv) (r : R * list R) : Prop := inside (fst e) (fst r) /\ Forall2 inside (snd e) (snd r).

Fixpoint coordsI (p : list num) : option (list itv) :=
  match p with
  | [] => Some []
  | x :: p' => match numI x, coordsI p' with
               | Some i, Some l => Some (i :: l)
               | _, _ => None
               end
  end.
Fixpoint startI (l : list (num * list num)) : option state :=
  match l with
  | [] => Some []
  | (w, p) :: l' => match numI w, coordsI p, startI l' with
                    | Some i, Some t, Some r => Some ((i, t) :: r)
                    | _, _, _ => None
                    end
  end.
Definition startR (l : list (num * list num)) : rstate := map (fun e => (value (fst e), map value (snd e))) l.

(** multiply by the first coordinate; forget the first coordinate *)
Definition timesI (s : state) : state :=
  map (fun e => match snd e with x :: _ => (mulI (fst e) x, snd e) | [] => e end) s.
Definition dropI (s : state) : state := map (fun e => (fst e, tl (snd e))) s.
Definition timesR (s : rstate) : rstate :=
  map (fun e => match snd e with x :: _ => (fst e * x, snd e) | [] => e end) s.
Definition dropR (s : rstate) : rstate := map (fun e => (fst e, tl (snd e))) s.

Definition sumI (s : state) : itv := fold_right (fun e i => addI (fst e) i) (0, 0)%Z s.
Definition sumR (s : rstate) (e : list nat) : R := fold_right (fun t r => fst t * monomial e (snd t) + r) 0 s.

Lemma coordsI_ok : forall p l, coordsI p = Some l -> Forall2 inside l (map value p).
Proof.
  induction p as [|x p IH]; intros l H; simpl in H.
  - inversion H. constructor.
  - destruct (numI x) as [i|] eqn:X; [|discriminate]. destruct (coordsI p) as [t|]; [|discriminate]. inversion H; subst.
    simpl. constructor; auto. apply numI_ok. assumption.
Qed.
Lemma startI_ok : forall l s, startI l = Some s -> Forall2 holds s (startR l).
Proof.
  induction l as [|[w p] l IH]; intros s H; simpl in H.
  - inversion H. constructor.
  - destruct (numI w) as [i|] eqn:X; [|discriminate]. destruct (coordsI p) as [t|] eqn:C; [|discriminate].
    destruct (startI l) as [r|]; [|discriminate]. inversion H; subst.
    simpl. constructor; auto. split; cbn [fst snd]; [apply numI_ok|apply coordsI_ok]; assumption.
Qed.
Lemma timesI_ok : forall s r, Forall2 holds s r -> Forall2 holds (timesI s) (timesR r).
Proof.
  intros s r H. induction H as [|[i l] [x p] s r [H1 H2] H IH]; cbn [timesI timesR map]; [constructor|].
  constructor; [|exact IH]. cbn [fst snd] in *. destruct H2; cbn [fst snd]; split; cbn [fst snd]; auto.
  apply mulI_ok; assumption.
Qed.
Lemma dropI_ok : forall s r, Forall2 holds s r -> Forall2 holds (dropI s) (dropR r).
Proof.
  intros s r H. induction H as [|[i l] [x p] s r [H1 H2] H IH]; cbn [dropI dropR map]; [constructor|].
  constructor; [|exact IH]. cbn [fst snd] in *. split; cbn [fst snd]; auto. destruct H2; cbn [tl]; auto.
Qed.
Lemma sumI_ok : forall s r, Forall2 holds s r -> inside (sumI s) (sumR r []).
Proof.
  intros s r H. induction H as [|[i l] [x p] s r [H1 H2] H IH]; simpl.
  - unfold inside; simpl. lra.
  - apply addI_ok; [|exact IH]. destruct p; rewrite Rmult_1_r; assumption.
Qed.
Lemma sumR_start : forall l e, sumR (startR l) e = esum l (monomial e).
Proof. intros l e. induction l as [|[w p] l IH]; [reflexivity|]. cbn [startR map sumR fold_right esum fst snd]. f_equal. exact IH. Qed.
Lemma sumR_zero : forall r e, Forall (fun t => snd t <> []) r -> sumR r (0%nat :: e) = sumR (dropR r) e.
Proof.
  intros r e H. induction H as [|[x p] r N H IH]; [reflexivity|]. cbn [sumR dropR map fold_right fst snd] in *.
  f_equal; [|exact IH]. destruct p as [|y p]; [congruence|]. simpl. ring.
Qed.
Lemma sumR_succ : forall r a e, Forall (fun t => snd t <> []) r -> sumR r (S a :: e) = sumR (timesR r) (a :: e).
Proof.
  intros r a e H. induction H as [|[x p] r N H IH]; [reflexivity|]. cbn [sumR timesR map fold_right fst snd] in *.
  f_equal; [|exact IH]. destruct p as [|y p]; [congruence|]. simpl. ring.
Qed.

(** |x - f| <= 1/T *)
Definition closeI (T : Z) (i : itv) (f : frac) : bool :=
  (((snd i * snd f - fst f * scale) * T <=? snd f * scale) && ((fst f * scale - fst i * snd f) * T <=? snd f * scale))%Z.

Lemma closeI_ok : forall T i f x, (0 < T)%Z -> (0 < snd f)%Z -> inside i x -> closeI T i f = true -> Rabs (x - fval f) <= / IZR T.
Proof.
  intros T [a b] [n d] x HT Hd [L H] C. unfold closeI in C; cbn [fst snd] in *. apply andb_true_iff in C. destruct C as [C1 C2].
  apply Z.leb_le, IZR_le in C1. apply Z.leb_le, IZR_le in C2.
  rewrite !mult_IZR, minus_IZR, !mult_IZR in C1. rewrite !mult_IZR, minus_IZR, !mult_IZR in C2.
  assert (S := scale_pos). assert (D : 0 < IZR d) by (apply IZR_lt; assumption). assert (T0 : 0 < IZR T) by (apply IZR_lt; assumption).
  unfold fval; cbn [fst snd].
  assert (P : 0 < IZR T * IZR d * IZR scale) by (apply Rmult_lt_0_compat; [apply Rmult_lt_0_compat|]; assumption).
  assert (Q : 0 <= IZR d * IZR T) by (apply Rlt_le, Rmult_lt_0_compat; assumption).
  assert (B1 : x * IZR scale * (IZR d * IZR T) <= IZR b * (IZR d * IZR T)) by (apply Rmult_le_compat_r; assumption).
  assert (B2 : IZR a * (IZR d * IZR T) <= x * IZR scale * (IZR d * IZR T)) by (apply Rmult_le_compat_r; assumption).
  apply Rabs_le. split.
  - apply Rmult_le_reg_r with (IZR T * IZR d * IZR scale); [assumption|].
    replace (- / IZR T * (IZR T * IZR d * IZR scale)) with (- (IZR d * IZR scale)) by (field; lra).
    replace ((x - IZR n / IZR d) * (IZR T * IZR d * IZR scale)) with (x * IZR scale * (IZR d * IZR T) - IZR n * IZR scale * IZR T) by (field; lra).
    lra.
  - apply Rmult_le_reg_r with (IZR T * IZR d * IZR scale); [assumption|].
    replace (/ IZR T * (IZR T * IZR d * IZR scale)) with (IZR d * IZR scale) by (field; lra).
    replace ((x - IZR n / IZR d) * (IZR T * IZR d * IZR scale)) with (x * IZR scale * (IZR d * IZR T) - IZR n * IZR scale * IZR T) by (field; lra).
    lra.
Qed.

Definition tolT (s : shape) : Z := match s with Pyramid | TriangularPrism => 1000000000 | _ => 10000000000000 end%Z.
Lemma tolT_ok : forall s, / IZR (tolT s) = tolerance s /\ (0 < tolT s)%Z.
Proof.
  intro s. split; [|destruct s; reflexivity].
  destruct s; unfold tolT, tolerance; f_equal; simpl; ring.
Qed.

(** walk over the exponents of degree at most [k] (per coordinate if [t]); if [m], only over those that do not increase *)
Section Walk.
  Variables (s : shape) (t m : bool).
  Section Loop.
    Variable next : nat -> nat -> state -> list nat -> bool.
    Fixpoint loopI (a n k : nat) (st : state) (pre : list nat) : bool :=
      next (if t then k else k - a)%nat a (dropI st) (a :: pre) &&
      match n with O => true | S n' => loopI (S a) n' k (timesI st) pre end.
  End Loop.
  Fixpoint walkI (d k cap : nat) (st : state) (pre : list nat) : bool :=
    match d with
    | O => closeI (tolT s) (sumI st) (integralF s (rev pre))
    | S d' => loopI (walkI d') 0 (if m then Nat.min cap k else k) k st pre
    end.
End Walk.

(** the exponents that are visited *)
Fixpoint visited (t m : bool) (k cap : nat) (e : list nat) : Prop :=
  match e with
  | [] => True
  | a :: e' => (a <= if m then Nat.min cap k else k)%nat /\ visited t m (if t then k else k - a) a e'
  end.

Lemma full_drop : forall d r, Forall (fun t : R * list R => length (snd t) = S d) r -> Forall (fun t => length (snd t) = d) (dropR r).
Proof.
  intros d r H. induction H as [|[x p] r N H IH]; [constructor|]. constructor; [|exact IH]. cbn [fst snd] in *.
  destruct p; simpl in *; congruence.
Qed.
Lemma full_times : forall d r, Forall (fun t : R * list R => length (snd t) = d) r -> Forall (fun t => length (snd t) = d) (timesR r).
Proof.
  intros d r H. induction H as [|[x p] r N H IH]; [constructor|]. constructor; [|exact IH]. cbn [fst snd] in *.
  destruct p; simpl in *; congruence.
Qed.
Lemma full_nonempty : forall d r, Forall (fun t : R * list R => length (snd t) = S d) r -> Forall (fun t => snd t <> []) r.
Proof. intros d r H. eapply Forall_impl; [|exact H]. intros [x p] E. simpl in *. destruct p; discriminate. Qed.

Lemma walkI_ok : forall s t m d k cap st r pre, Forall2 holds st r -> Forall (fun t => length (snd t) = d) r ->
  walkI s t m d k cap st pre = true ->
  forall e, length e = d -> visited t m k cap e -> Rabs (sumR r e - monomial_integral s (rev pre ++ e)) <= tolerance s.
Proof.
  intros s t m d. induction d as [|d IH]; intros k cap st r pre H L W e E V.
  - destruct e; [|discriminate]. cbn [walkI] in W. rewrite app_nil_r.
    destruct (integralF_ok s (rev pre)) as [<- P]. destruct (tolT_ok s) as [<- Q].
    eapply closeI_ok; eauto. apply sumI_ok. assumption.
  - destruct e as [|b e]; [discriminate|]. injection E as E. destruct V as [B V].
    cbn [walkI] in W.
    assert (K : forall n a st r, Forall2 holds st r -> Forall (fun t => length (snd t) = S d) r -> (b <= a + n)%nat ->
      loopI t (walkI s t m d) a n k st pre = true -> (a <= b)%nat ->
      Rabs (sumR r ((b - a)%nat :: e) - monomial_integral s (rev pre ++ b :: e)) <= tolerance s).
    { clear W H L st r. induction n as [|n IHn]; intros a st r H L AK W A; cbn [loopI] in W; apply andb_true_iff in W; destruct W as [W1 W2].
      - assert (a = b) by lia. subst a. rewrite Nat.sub_diag. rewrite sumR_zero by (eapply full_nonempty; eauto).
        replace (rev pre ++ b :: e) with (rev (b :: pre) ++ e) by (simpl; rewrite <- app_assoc; reflexivity).
        eapply IH; [apply dropI_ok; exact H|apply full_drop; exact L|exact W1|exact E|].
        exact V.
      - destruct (Nat.eq_dec a b) as [->|N].
        + rewrite Nat.sub_diag. rewrite sumR_zero by (eapply full_nonempty; eauto).
          replace (rev pre ++ b :: e) with (rev (b :: pre) ++ e) by (simpl; rewrite <- app_assoc; reflexivity).
          eapply IH; [apply dropI_ok; exact H|apply full_drop; exact L|exact W1|exact E|].
          exact V.
        + replace (b - a)%nat with (S (b - S a)) by lia. rewrite sumR_succ by (eapply full_nonempty; eauto).
          eapply IHn; [apply timesI_ok; exact H|apply full_times; exact L|lia|exact W2|lia]. }
    specialize (K _ 0%nat st r H L B W (Nat.le_0_l b)). rewrite Nat.sub_0_r in K. exact K.
Qed.

Definition box_shape (s : shape) : bool := match s with Line | Square | Cube | Hypercube => true | _ => false end.
Definition fullb (d : nat) (l : list (num * list num)) : bool := forallb (fun e => (length (snd e) =? d)%nat) l.
Lemma fullb_ok : forall d l, fullb d l = true -> Forall (fun t => length (snd t) = d) (startR l).
Proof.
  intros d l H. unfold fullb in H. rewrite forallb_forall in H. apply Forall_forall. intros [x p] I.
  unfold startR in I. apply in_map_iff in I. destruct I as [[w q] [E I]]. inversion E; subst. specialize (H _ I).
  apply Nat.eqb_eq in H. simpl in *. rewrite map_length. assumption.
Qed.

Definition checkI (s : shape) (k : nat) (l : list (num * list num)) : bool :=
  fullb (dimension s) l &&
  match startI l with
  | Some st => walkI s (box_shape s) false (dimension s) k 0 st []
  | None => false
  end.

Lemma visited_all : forall s k e, monomial_of_degree s (N.of_nat k) e -> visited (box_shape s) false k 0 e.
Proof.
  intros s k e [_ D].
  assert (A : Forall (fun a => (a <= k)%nat) e -> forall c, visited true false k c e).
  { clear. induction 1; simpl; auto. }
  assert (B : forall k, (list_sum e <= k)%nat -> forall c, visited false false k c e).
  { clear. induction e as [|a e IH]; intros k H c; simpl; auto. unfold list_sum in H. simpl in H. fold (list_sum e) in H.
    split; [lia|]. apply IH. lia. }
  destruct s; cbn [box_shape]; cbv iota in D;
    first [ apply A; eapply Forall_impl; [|exact D]; intros a Ha; cbv beta in Ha; lia | apply B; lia ].
Qed.

Lemma checkI_ok : forall s k l, checkI s k l = true ->
  forall e, monomial_of_degree s (N.of_nat k) e -> Rabs (esum l (monomial e) - monomial_integral s e) <= tolerance s.
Proof.
  intros s k l C e D. unfold checkI in C. apply andb_true_iff in C. destruct C as [F C].
  destruct (startI l) as [st|] eqn:T; [|discriminate].
  rewrite <- sumR_start. change e with (rev [] ++ e) at 2.
  eapply walkI_ok; [apply startI_ok; exact T|apply fullb_ok; exact F|exact C|apply D|apply visited_all; exact D].
Qed.

Lemma integrates_from : forall r k, getNumberOfPoints r = length (entries r) ->
  (forall e, monomial_of_degree (forReferenceGeometry r) k e ->
     Rabs (esum (entries r) (monomial e) - monomial_integral (forReferenceGeometry r) e) <= tolerance (forReferenceGeometry r)) ->
  integrates r k.
Proof.
  intros r k E H q D. exists (esum (entries r) (peval q)), (pintegral (forReferenceGeometry r) q). repeat split.
  - apply quadrature_ok. assumption.
  - apply integral_poly. eapply Forall_impl; [|exact D]. intros t [L _]. exact L.
  - eapply poly_bound; [exact H|]. exact D.
Qed.

Lemma integrates_checked : forall r k, getNumberOfPoints r = length (entries r) ->
  checkI (forReferenceGeometry r) k (entries r) = true -> integrates r (N.of_nat k).
Proof. intros r k E C. apply integrates_from; [assumption|]. apply checkI_ok. assumption. Qed.

(** ** products of a rule for the line *)
Lemma esum_flat : forall {A} (l : list A) (g : A -> list (num * list num)) f,
  esum (flat_map g l) f = fold_right (fun a s => esum (g a) f + s) 0 l.
Proof. intros A l g f. induction l as [|a l IH]; simpl; [reflexivity|]. rewrite esum_app, IH. reflexivity. Qed.

Definition flat1 (l : list (num * list num)) : bool := forallb (fun e => match snd e with [_] => true | _ => false end) l.

Lemma esum_scale : forall l f a, esum l (fun p => a * f p) = a * esum l f.
Proof. intros l f a. induction l as [|[w p] l IH]; simpl; [ring|]. rewrite IH. ring. Qed.

Lemma esum_single : forall l a, flat1 l = true ->
  esum l (monomial [a]) = fold_right (fun e s => value (fst e) * (match snd e with x :: _ => value x ^ a | [] => 1 end) + s) 0 l.
Proof.
  intros l a. unfold flat1. induction l as [|[w p] l IH]; cbn [esum fold_right flat_map map fst snd app]; [reflexivity|]. cbn [forallb snd]. intros H. apply andb_true_iff in H. destruct H as [H1 H2].
  rewrite IH by assumption. destruct p as [|x [|? ?]]; try discriminate. simpl. ring.
Qed.

Lemma esum_product2 : forall l a b, flat1 l = true ->
  esum (product2 l) (monomial [a; b]) = esum l (monomial [a]) * esum l (monomial [b]).
Proof.
  intros l a b H. unfold product2. rewrite esum_flat. rewrite (esum_single l a H).
  assert (K : forall l', flat1 l' = true ->
    fold_right (fun i s => esum (map (fun j => (Mul (fst i) (fst j), snd i ++ snd j)) l) (monomial [a; b]) + s) 0 l' =
    fold_right (fun e s => value (fst e) * match snd e with x :: _ => value x ^ a | [] => 1 end + s) 0 l' * esum l (monomial [b])).
  { induction l' as [|[w p] l' IH]; intros H'; cbn [esum fold_right flat_map map fst snd app]; [ring|]. unfold flat1 in H'. cbn [forallb snd] in H'. apply andb_true_iff in H'. destruct H' as [H1 H2].
    rewrite IH by assumption. destruct p as [|x [|? ?]]; try discriminate. clear IH.
    rewrite Rmult_plus_distr_r. f_equal. cbn [esum fold_right flat_map map fst snd app].
    clear - H. induction l as [|[v q] l IH]; cbn [esum fold_right flat_map map fst snd app]; [ring|]. unfold flat1 in H. cbn [forallb snd] in H. apply andb_true_iff in H. destruct H as [H1 H2].
    rewrite IH by assumption. destruct q as [|y [|? ?]]; try discriminate. simpl. ring. }
  apply K. assumption.
Qed.

Lemma esum_product3 : forall l a b c, flat1 l = true ->
  esum (product3 l) (monomial [a; b; c]) = esum l (monomial [a]) * esum l (monomial [b]) * esum l (monomial [c]).
Proof.
  intros l a b c H. unfold product3. rewrite esum_flat. rewrite (esum_single l a H).
  assert (K : forall l', flat1 l' = true ->
    fold_right (fun i s => esum (flat_map (fun j => map (fun k => (Mul (Mul (fst i) (fst j)) (fst k), snd i ++ snd j ++ snd k)) l) l) (monomial [a; b; c]) + s) 0 l' =
    fold_right (fun e s => value (fst e) * match snd e with x :: _ => value x ^ a | [] => 1 end + s) 0 l' * (esum l (monomial [b]) * esum l (monomial [c]))).
  { induction l' as [|[w p] l' IH]; intros H'; cbn [esum fold_right flat_map map fst snd app]; [ring|]. unfold flat1 in H'. cbn [forallb snd] in H'. apply andb_true_iff in H'. destruct H' as [H1 H2].
    rewrite IH by assumption. destruct p as [|x [|? ?]]; try discriminate. clear IH.
    rewrite Rmult_plus_distr_r. f_equal. cbn [esum fold_right flat_map map fst snd app]. rewrite esum_flat. rewrite (esum_single l b H).
    assert (K2 : forall l', flat1 l' = true ->
      fold_right (fun j s => esum (map (fun k => (Mul (Mul w (fst j)) (fst k), x :: snd j ++ snd k)) l) (monomial [a; b; c]) + s) 0 l' =
      value w * value x ^ a * (fold_right (fun e s => value (fst e) * match snd e with x :: _ => value x ^ b | [] => 1 end + s) 0 l' * esum l (monomial [c]))).
    { clear H2 l' H1. induction l' as [|[v q] l' IH]; intros H'; cbn [esum fold_right flat_map map fst snd app]; [ring|]. unfold flat1 in H'. cbn [forallb snd] in H'. apply andb_true_iff in H'. destruct H' as [H1 H2].
      rewrite IH by assumption. destruct q as [|y [|? ?]]; try discriminate. clear IH.
      rewrite Rmult_plus_distr_r, Rmult_plus_distr_l. f_equal. cbn [esum fold_right flat_map map fst snd app].
      clear - H. induction l as [|[u z] l IH]; cbn [esum fold_right flat_map map fst snd app]; [ring|]. unfold flat1 in H. cbn [forallb snd] in H. apply andb_true_iff in H. destruct H as [H1 H2].
      rewrite IH by assumption. destruct z as [|t [|? ?]]; try discriminate. simpl. ring. }
    rewrite K2 by assumption. ring. }
  rewrite K by assumption. ring.
Qed.

Fixpoint line_moments (k : nat) (st : state) : list itv :=
  sumI st :: match k with O => [] | S k' => line_moments k' (timesI st) end.
Definition lineI (k : nat) (l : list (num * list num)) : option (list itv) :=
  option_map (line_moments k) (startI l).

Lemma sumR_none : forall r, Forall (fun t : R * list R => length (snd t) = 1%nat) r -> sumR r [] = sumR r [0%nat].
Proof.
  intros r H. induction H as [|[x p] r N H IH]; [reflexivity|]. cbn [sumR fold_right fst snd] in *. f_equal; [|exact IH].
  destruct p; simpl; ring.
Qed.

Lemma line_moments_ok : forall k st r a i, Forall2 holds st r -> Forall (fun t => length (snd t) = 1%nat) r ->
  nth_error (line_moments k st) a = Some i -> inside i (sumR r [a]).
Proof.
  induction k as [|k IH]; intros st r a i H L E; destruct a as [|a]; cbn [line_moments nth_error] in E.
  - inversion E; subst. rewrite <- sumR_none by assumption. apply sumI_ok. assumption.
  - destruct a; discriminate.
  - inversion E; subst. rewrite <- sumR_none by assumption. apply sumI_ok. assumption.
  - rewrite sumR_succ by (eapply full_nonempty; eauto). eapply IH; [apply timesI_ok; exact H|apply full_times; exact L|exact E].
Qed.

Lemma lineI_ok : forall k l m a i, flat1 l = true -> lineI k l = Some m -> nth_error m a = Some i -> inside i (esum l (monomial [a])).
Proof.
  intros k l m a i F H E. unfold lineI in H. destruct (startI l) as [st|] eqn:T; [|discriminate]. inversion H; subst.
  rewrite <- sumR_start. eapply line_moments_ok; [apply startI_ok; exact T| |exact E].
  apply fullb_ok. unfold fullb, flat1 in *. rewrite forallb_forall in *. intros x I. specialize (F x I).
  destruct (snd x) as [|? [|? ?]]; try discriminate. reflexivity.
Qed.

Definition check2I (k : nat) (l : list (num * list num)) : bool :=
  flat1 l && match lineI k l with
  | Some m => forallb (fun e => match e with
      | [a; b] => match nth_error m a, nth_error m b with
                  | Some i, Some j => closeI (tolT Square) (mulI i j) (integralF Square e)
                  | _, _ => false
                  end
      | _ => false end) (exponents Square k)
  | None => false
  end.
Definition check3I (k : nat) (l : list (num * list num)) : bool :=
  flat1 l && match lineI k l with
  | Some m => forallb (fun e => match e with
      | [a; b; c] => match nth_error m a, nth_error m b, nth_error m c with
                  | Some i, Some j, Some n => closeI (tolT Cube) (mulI (mulI i j) n) (integralF Cube e)
                  | _, _, _ => false
                  end
      | _ => false end) (exponents Cube k)
  | None => false
  end.

Lemma check2I_ok : forall k l, check2I k l = true ->
  forall e, monomial_of_degree Square (N.of_nat k) e -> Rabs (esum (product2 l) (monomial e) - monomial_integral Square e) <= tolerance Square.
Proof.
  intros k l C e D. apply andb_true_iff in C. destruct C as [F C]. destruct (lineI k l) as [m|] eqn:L; [|discriminate].
  rewrite forallb_forall in C. specialize (C e (exponents_in Square k e D)). cbv beta in C.
  destruct e as [|a [|b [|? ?]]]; try discriminate.
  destruct (nth_error m a) as [i|] eqn:I; [|discriminate]. destruct (nth_error m b) as [j|] eqn:J; [|discriminate].
  destruct (integralF_ok Square [a; b]) as [<- P]. destruct (tolT_ok Square) as [<- Q].
  rewrite esum_product2 by assumption. eapply closeI_ok; eauto.
  apply mulI_ok; eapply lineI_ok; eauto.
Qed.
Lemma check3I_ok : forall k l, check3I k l = true ->
  forall e, monomial_of_degree Cube (N.of_nat k) e -> Rabs (esum (product3 l) (monomial e) - monomial_integral Cube e) <= tolerance Cube.
Proof.
  intros k l C e D. apply andb_true_iff in C. destruct C as [F C]. destruct (lineI k l) as [m|] eqn:L; [|discriminate].
  rewrite forallb_forall in C. specialize (C e (exponents_in Cube k e D)). cbv beta in C.
  destruct e as [|a [|b [|c [|? ?]]]]; try discriminate.
  destruct (nth_error m a) as [i|] eqn:I; [|discriminate]. destruct (nth_error m b) as [j|] eqn:J; [|discriminate].
  destruct (nth_error m c) as [n|] eqn:K; [|discriminate].
  destruct (integralF_ok Cube [a; b; c]) as [<- P]. destruct (tolT_ok Cube) as [<- Q].
  rewrite esum_product3 by assumption. eapply closeI_ok; eauto.
  apply mulI_ok; [apply mulI_ok|]; eapply lineI_ok; eauto.
Qed.

(** ** rules for the tetrahedron that do not change if the coordinates are interchanged *)
Fixpoint num_eqb (a b : num) : bool :=
  match a, b with
  | Lit m e, Lit m' e' => Z.eqb m m' && Nat.eqb e e'
  | Neg x, Neg y => num_eqb x y
  | Add x y, Add x' y' => num_eqb x x' && num_eqb y y'
  | Sub x y, Sub x' y' => num_eqb x x' && num_eqb y y'
  | Mul x y, Mul x' y' => num_eqb x x' && num_eqb y y'
  | Div x y, Div x' y' => num_eqb x x' && num_eqb y y'
  | Sqrt x, Sqrt y => num_eqb x y
  | _, _ => false
  end.
Lemma num_eqb_eq : forall a b, num_eqb a b = true -> a = b.
Proof.
  induction a; intros [] H; simpl in H; try discriminate;
    repeat match goal with H : _ && _ = true |- _ => apply andb_true_iff in H; destruct H end;
    repeat match goal with H : Z.eqb _ _ = true |- _ => apply Z.eqb_eq in H | H : Nat.eqb _ _ = true |- _ => apply Nat.eqb_eq in H end;
    f_equal; auto.
Qed.
Fixpoint nums_eqb (a b : list num) : bool :=
  match a, b with
  | [], [] => true
  | x :: a', y :: b' => num_eqb x y && nums_eqb a' b'
  | _, _ => false
  end.
Lemma nums_eqb_eq : forall a b, nums_eqb a b = true -> a = b.
Proof.
  induction a; intros [] H; simpl in H; try discriminate; auto. apply andb_true_iff in H. destruct H.
  f_equal; auto. apply num_eqb_eq. assumption.
Qed.
Fixpoint remove_entry (e : num * list num) (l : list (num * list num)) : option (list (num * list num)) :=
  match l with
  | [] => None
  | x :: l' => if nums_eqb (snd e) (snd x) && num_eqb (fst e) (fst x) then Some l' else option_map (cons x) (remove_entry e l')
  end.
Fixpoint same_entries (l l' : list (num * list num)) : bool :=
  match l with
  | [] => match l' with [] => true | _ => false end
  | e :: t => match remove_entry e l' with Some r => same_entries t r | None => false end
  end.

Lemma remove_entry_ok : forall e l r f, remove_entry e l = Some r -> esum l f = value (fst e) * f (map value (snd e)) + esum r f.
Proof.
  intros e l. induction l as [|[w p] l IH]; intros r f H; simpl in H; [discriminate|].
  destruct (nums_eqb (snd e) p && num_eqb (fst e) w) eqn:E.
  - apply andb_true_iff in E. destruct E as [E1 E2]. apply nums_eqb_eq in E1. apply num_eqb_eq in E2. subst. inversion H; subst. reflexivity.
  - destruct (remove_entry e l) as [t|]; [|discriminate]. inversion H; subst. simpl. rewrite (IH t f eq_refl). ring.
Qed.
Lemma same_entries_ok : forall l l' f, same_entries l l' = true -> esum l f = esum l' f.
Proof.
  induction l as [|[w p] l IH]; intros l' f H; simpl in H.
  - destruct l'; [reflexivity|discriminate].
  - destruct (remove_entry (w, p) l') as [r|] eqn:R; [|discriminate].
    rewrite (remove_entry_ok _ _ _ f R). simpl. f_equal. auto.
Qed.

Definition swap01 (e : num * list num) : num * list num :=
  match e with (w, [x; y; z]) => (w, [y; x; z]) | _ => e end.
Definition swap12 (e : num * list num) : num * list num :=
  match e with (w, [x; y; z]) => (w, [x; z; y]) | _ => e end.

Lemma esum_swap01 : forall l a b c, fullb 3 l = true -> esum (map swap01 l) (monomial [a; b; c]) = esum l (monomial [b; a; c]).
Proof.
  intros l a b c. unfold fullb. induction l as [|[w p] l IH]; cbn [map esum forallb]; intros H; [reflexivity|].
  apply andb_true_iff in H. destruct H as [H1 H2]. apply Nat.eqb_eq in H1.
  destruct p as [|x [|y [|z [|? ?]]]]; try discriminate. cbn [swap01 esum]. rewrite IH by assumption. simpl. ring.
Qed.
Lemma esum_swap12 : forall l a b c, fullb 3 l = true -> esum (map swap12 l) (monomial [a; b; c]) = esum l (monomial [a; c; b]).
Proof.
  intros l a b c. unfold fullb. induction l as [|[w p] l IH]; cbn [map esum forallb]; intros H; [reflexivity|].
  apply andb_true_iff in H. destruct H as [H1 H2]. apply Nat.eqb_eq in H1.
  destruct p as [|x [|y [|z [|? ?]]]]; try discriminate. cbn [swap12 esum]. rewrite IH by assumption. simpl. ring.
Qed.

Definition checkT (k : nat) (l : list (num * list num)) : bool :=
  fullb 3 l && same_entries (map swap01 l) l && same_entries (map swap12 l) l &&
  match startI l with
  | Some st => walkI Tetrahedron false true 3 k k st []
  | None => false
  end.

Lemma checkT_ok : forall k l, checkT k l = true ->
  forall e, monomial_of_degree Tetrahedron (N.of_nat k) e ->
  Rabs (esum l (monomial e) - monomial_integral Tetrahedron e) <= tolerance Tetrahedron.
Proof.
  intros k l C e [L D]. unfold checkT in C. repeat (apply andb_true_iff in C; destruct C as [C ?]).
  destruct (startI l) as [st|] eqn:T; [|discriminate].
  assert (S1 : forall a b c, esum l (monomial [a; b; c]) = esum l (monomial [b; a; c])).
  { intros a b c. rewrite <- esum_swap01 by assumption. apply same_entries_ok. assumption. }
  assert (S2 : forall a b c, esum l (monomial [a; b; c]) = esum l (monomial [a; c; b])).
  { intros a b c. rewrite <- esum_swap12 by assumption. apply same_entries_ok. assumption. }
  assert (I1 : forall a b c, simplex3 a b c = simplex3 b a c).
  { intros a b c. unfold simplex3. replace (b + a + c + 3)%nat with (a + b + c + 3)%nat by lia. field. apply FR_neq. }
  assert (I2 : forall a b c, simplex3 a b c = simplex3 a c b).
  { intros a b c. unfold simplex3. replace (a + c + b + 3)%nat with (a + b + c + 3)%nat by lia. field. apply FR_neq. }
  destruct e as [|a [|b [|c [|? ?]]]]; try discriminate. cbn [monomial_integral]. unfold list_sum in D. cbn [fold_right] in D.
  assert (W : forall a b c, (c <= b)%nat -> (b <= a)%nat -> (a + b + c <= k)%nat ->
    Rabs (esum l (monomial [a; b; c]) - simplex3 a b c) <= tolerance Tetrahedron).
  { clear a b c L D. intros a b c X Y Z. rewrite <- sumR_start.
    change (simplex3 a b c) with (monomial_integral Tetrahedron (rev [] ++ [a; b; c])).
    eapply walkI_ok; [apply startI_ok; exact T|apply fullb_ok; eassumption|eassumption|reflexivity|].
    cbn [visited]. cbv iota. repeat split; lia. }
  destruct (le_lt_dec b a), (le_lt_dec c b), (le_lt_dec c a); try lia.
  - apply W; lia.
  - rewrite S2, I2. apply W; lia.
  - rewrite S2, I2, S1, I1. apply W; lia.
  - rewrite S1, I1. apply W; lia.
  - rewrite S1, I1, S2, I2. apply W; lia.
  - rewrite S1, I1, S2, I2, S1, I1. apply W; lia.
Qed.
