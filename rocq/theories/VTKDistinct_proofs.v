From Coq Require Import List Arith Bool Lia Reals Lra Permutation.
From Verif Require Import RefGeometry_model Curvilinear_model Curvilinear_proofs VTKElements_model VTKElements_spec VTKElements_proofs VTKSimplex_proofs VTKTetra_proofs.
Import ListNotations.
Local Open Scope nat_scope.

(** * All points of a lattice, each once *)
Fixpoint cube (d n : nat) : list (list nat) :=
  match d with O => [[]] | S d => flat_map (fun x => map (cons x) (cube d n)) (seq 0 (n + 1)) end.
Fixpoint simplex (d n : nat) : list (list nat) :=
  match d with O => [[]] | S d => flat_map (fun x => map (cons x) (simplex d (n - x))) (seq 0 (n + 1)) end.

Lemma NoDup_map_inj {A B} (f : A -> B) l : (forall x y, In x l -> In y l -> f x = f y -> x = y) -> NoDup l -> NoDup (map f l).
Proof.
  induction l as [|a l IH]; intros H N; [constructor|]. inversion N; subst. cbn. constructor.
  - rewrite in_map_iff. intros (y & E & Hy). rewrite (H y a) in Hy; auto using in_eq. right. exact Hy.
  - apply IH; [|assumption]. intros x y Hx Hy. apply H; right; assumption.
Qed.
Lemma cons_family_nodup (f : nat -> list (list nat)) k : (forall x, NoDup (f x)) -> NoDup (flat_map (fun x => map (cons x) (f x)) (seq 0 k)).
Proof.
  intros H. apply NoDup_flat_map; [apply seq_NoDup| |].
  - intros x _. apply NoDup_map_inj; [|apply H]. intros a b _ _ E. injection E. auto.
  - intros x y z _ _ Hx Hy. apply in_map_iff in Hx, Hy. destruct Hx as (a & <- & _), Hy as (b & E & _). congruence.
Qed.
Lemma cube_nodup d n : NoDup (cube d n).
Proof.
  induction d as [|d IH]; cbn; [repeat constructor; intros []|]. apply (cons_family_nodup (fun _ => cube d n)). intros _. exact IH.
Qed.
Lemma simplex_nodup d : forall n, NoDup (simplex d n).
Proof.
  induction d as [|d IH]; intros n; cbn; [repeat constructor; intros []|]. apply (cons_family_nodup (fun x => simplex d (n - x))). intros x. apply IH.
Qed.
Lemma cube_length d n : length (cube d n) = (n + 1) ^ d.
Proof.
  induction d as [|d IH]; cbn [cube Nat.pow]; [reflexivity|]. rewrite (flat_map_same_length _ ((n + 1) ^ d)).
  - rewrite seq_length. reflexivity.
  - intros x _. rewrite map_length. exact IH.
Qed.
Lemma simplex_step d n : length (simplex (S d) (S n)) = length (simplex d (S n)) + length (simplex (S d) n).
Proof.
  cbn [simplex]. replace (S n + 1) with (S (n + 1)) by lia. cbn [seq flat_map]. rewrite app_length, map_length, Nat.sub_0_r. f_equal.
  rewrite <- seq_shift. rewrite flat_map_concat_map, map_map, <- flat_map_concat_map.
  cbn [Nat.sub]. generalize (seq 0 (n + 1)). intros l. induction l as [|x l IH]; [reflexivity|].
  cbn [flat_map]. rewrite !app_length, !map_length, IH. reflexivity.
Qed.
Lemma simplex_0 d : length (simplex d 0) = 1.
Proof. induction d as [|d IH]; [reflexivity|]. cbn. rewrite app_nil_r, map_length. exact IH. Qed.
Lemma simplex_1 n : length (simplex 1 n) = n + 1.
Proof. induction n as [|n IH]; [reflexivity|]. rewrite simplex_step, IH. cbn. lia. Qed.
Lemma simplex_2 n : 2 * length (simplex 2 n) = (n + 1) * (n + 2).
Proof. induction n as [|n IH]; [reflexivity|]. rewrite simplex_step, simplex_1. nia. Qed.
Lemma simplex_3 n : 6 * length (simplex 3 n) = (n + 1) * (n + 2) * (n + 3).
Proof. induction n as [|n IH]; [reflexivity|]. rewrite simplex_step. pose proof (simplex_2 (S n)). nia. Qed.
Lemma cube_in d n : forall p, In p (cube d n) -> length p = d /\ Forall (fun x => x <= n) p.
Proof.
  induction d as [|d IH]; intros p H; cbn in H; [destruct H as [<-|[]]; auto|].
  apply in_flat_map in H. destruct H as (x & Hx & H). apply in_map_iff in H. destruct H as (q & <- & Hq).
  destruct (IH q Hq) as (L & F). apply in_seq in Hx. split; [cbn; lia|]. constructor; [lia|exact F].
Qed.
Lemma simplex_in d : forall n p, In p (simplex d n) -> length p = d /\ list_sum p <= n.
Proof.
  induction d as [|d IH]; intros n p H; cbn in H; [destruct H as [<-|[]]; cbn; split; [reflexivity|lia]|].
  apply in_flat_map in H. destruct H as (x & Hx & H). apply in_map_iff in H. destruct H as (q & <- & Hq).
  destruct (IH _ q Hq) as (L & F). apply in_seq in Hx. split; [cbn; lia|]. change (x + list_sum q <= n). lia.
Qed.

(** as many points as in the lattice, and all points of the lattice: each once *)
Lemma covering_nodup (f : nat -> R) (lat : list (list nat)) (pts : list point) : (forall x y, f x = f y -> x = y) -> NoDup lat ->
  length pts <= length lat -> (forall p, In p lat -> In (map f p) pts) -> NoDup pts.
Proof.
  intros I N L C. apply (@NoDup_incl_NoDup point (map (map f) lat)).
  - apply NoDup_map_inj; [|exact N]. intros x y _ _ E. revert y E. induction x as [|a x IH]; intros [|b y] E; cbn in E; try discriminate; [reflexivity|].
    injection E as Ea Ex. f_equal; auto.
  - rewrite map_length. exact L.
  - intros p Hp. apply in_map_iff in Hp. destruct Hp as (q & <- & Hq). apply C, Hq.
Qed.
Lemma lattice_inj n x y : 1 <= n -> lattice n x = lattice n y -> x = y.
Proof.
  intros Hn E. unfold lattice, Rdiv in E. assert (INR n <> 0%R) by (apply not_0_INR; lia). apply INR_eq.
  apply (Rmult_eq_reg_r (/ INR n)); [lra|]. apply Rinv_neq_0_compat. assumption.
Qed.
Lemma fraction_inj n x y : 1 <= n -> (INR x / INR n = INR y / INR n)%R -> x = y.
Proof.
  intros Hn E. unfold Rdiv in E. assert (INR n <> 0%R) by (apply not_0_INR; lia). apply INR_eq.
  apply (Rmult_eq_reg_r (/ INR n)); [exact E|]. apply Rinv_neq_0_compat. assumption.
Qed.
Lemma cube_covering n d (pts : list point) : 1 <= n -> length pts = (n + 1) ^ d ->
  (forall p, length p = d -> Forall (fun x => x <= n) p -> In (map (lattice n) p) pts) -> NoDup pts.
Proof.
  intros Hn L C. apply (covering_nodup (lattice n) (cube d n)).
  - intros x y. apply lattice_inj, Hn.
  - apply cube_nodup.
  - rewrite cube_length, <- L. apply le_n.
  - intros p Hp. destruct (cube_in _ _ _ Hp) as (Lp & F). apply C; assumption.
Qed.
Lemma simplex_covering n d (pts : list point) : 1 <= n -> length pts = length (simplex d n) ->
  (forall p, length p = d -> list_sum p <= n -> In (map (fun x => INR x / INR n)%R p) pts) -> NoDup pts.
Proof.
  intros Hn L C. apply (covering_nodup (fun x => INR x / INR n)%R (simplex d n)).
  - intros x y. apply fraction_inj, Hn.
  - apply simplex_nodup.
  - lia.
  - intros p Hp. destruct (simplex_in _ _ _ Hp) as (Lp & F). apply C; assumption.
Qed.
