From Coq Require Import List ZArith Bool Lia.
From Verif Require Import Centaur_model Centaur_spec.
Import ListNotations.
Open Scope Z_scope.

Lemma value_number n : fits n -> value (number n) = n.
Proof.
  unfold fits. change (2 ^ 32) with 4294967296. intros H. unfold value, number. cbn [fold_right].
  pose proof (Z.div_mod n 256 ltac:(lia)).
  pose proof (Z.div_mod (n / 256) 256 ltac:(lia)).
  pose proof (Z.div_mod (n / 65536) 256 ltac:(lia)).
  assert (E1 : n / 65536 = n / 256 / 256) by (rewrite Z.div_div by lia; reflexivity).
  assert (E2 : n / 16777216 = n / 65536 / 256) by (rewrite Z.div_div by lia; reflexivity).
  rewrite (Z.mod_small (n / 16777216) 256). 2:{ split; [apply Z.div_pos; lia|]. apply Z.div_lt_upper_bound; lia. }
  rewrite <- E1, <- E2 in *. lia.
Qed.
Lemma number_length n : length (number n) = 4%nat. Proof. reflexivity. Qed.

Lemma read_marker old n s : fits n -> readRecordSize old (number n ++ s) = (true, n, s).
Proof.
  intros H. unfold readRecordSize, sgetn. change (Z.to_nat 4) with 4%nat. cbn [number app firstn skipn].
  unfold size. cbn [length]. change (Z.of_nat 4 =? 4) with true. cbv iota.
  f_equal. f_equal. exact (value_number n H).
Qed.
Lemma firstn_exact {A} (a b : list A) n : n = length a -> firstn n (a ++ b) = a.
Proof. intros ->. rewrite firstn_app, Nat.sub_diag, firstn_all. apply app_nil_r. Qed.
Lemma skipn_exact {A} (a b : list A) n : n = length a -> skipn n (a ++ b) = b.
Proof. intros ->. now rewrite skipn_app, Nat.sub_diag, skipn_all. Qed.

Section Checked.
Context (c : build) (C : asserts c = true).

Lemma read_record r s : fits_record r -> readRawRecord c (Z.of_nat (length r)) (record r ++ s) = Some (r, s).
Proof using C.
  intros H. unfold readRawRecord, record, assert_debug. rewrite C, <- !app_assoc, read_marker by exact H.
  rewrite Z.eqb_refl. cbn [andb]. unfold sgetn. rewrite Nat2Z.id, firstn_exact, skipn_exact by reflexivity.
  unfold size. rewrite Z.ltb_irrefl, Z.eqb_refl. now rewrite read_marker, Z.eqb_refl by exact H.
Qed.
Lemma skip_record r s : fits_record r -> skipRecord c (Z.of_nat (length r)) (record r ++ s) = Some s.
Proof using C.
  intros H. unfold skipRecord, record, assert_debug. rewrite C, <- !app_assoc, read_marker by exact H.
  rewrite Z.eqb_refl. cbn [andb]. rewrite Nat2Z.id, skipn_exact by reflexivity.
  now rewrite read_marker, Z.eqb_refl by exact H.
Qed.
Lemma peek_record r s : fits_record r -> peekRecordSize c (record r ++ s) = Some (Z.of_nat (length r)).
Proof using C.
  intros H. unfold peekRecordSize, record, assert_debug, sgetn. rewrite C, <- !app_assoc. change (Z.to_nat 4) with 4%nat.
  rewrite firstn_exact by reflexivity. unfold size. rewrite number_length. change (Z.of_nat 4 =? 4) with true. cbv iota.
  rewrite firstn_exact by reflexivity. now rewrite value_number.
Qed.

(** what can be read *)
Lemma firstn_split {A} n (s : list A) : length (firstn n s) = n -> s = firstn n s ++ skipn n s.
Proof. intros _. symmetry. apply firstn_skipn. Qed.
Lemma bytes4 s : Forall (fun b => 0 <= b < 256) s -> length s = 4%nat -> s = number (value s) /\ fits (value s).
Proof.
  intros B L. destruct s as [|a [|b [|d [|e [|]]]]]; try discriminate. clear L.
  repeat (inversion_clear B as [|? ? X B']; rename B' into B; revert X). intros.
  unfold number, value, fits. cbn [fold_right]. change (2 ^ 32) with 4294967296.
  assert (E : a + 256 * (b + 256 * (d + 256 * (e + 256 * 0))) = a + 256 * b + 65536 * d + 16777216 * e) by lia.
  rewrite E. split; [|lia].
  assert (D1 : (a + 256 * b + 65536 * d + 16777216 * e) / 256 = b + 256 * d + 65536 * e) by (symmetry; apply (Z.div_unique _ _ _ a); lia).
  assert (D2 : (a + 256 * b + 65536 * d + 16777216 * e) / 65536 = d + 256 * e) by (symmetry; apply (Z.div_unique _ _ _ (a + 256 * b)); lia).
  assert (D3 : (a + 256 * b + 65536 * d + 16777216 * e) / 16777216 = e) by (symmetry; apply (Z.div_unique _ _ _ (a + 256 * b + 65536 * d)); lia).
  rewrite D1, D2, D3.
  assert (M0 : (a + 256 * b + 65536 * d + 16777216 * e) mod 256 = a) by (symmetry; apply (Z.mod_unique _ _ (b + 256 * d + 65536 * e)); lia).
  assert (M1 : (b + 256 * d + 65536 * e) mod 256 = b) by (symmetry; apply (Z.mod_unique _ _ (d + 256 * e)); lia).
  assert (M2 : (d + 256 * e) mod 256 = d) by (symmetry; apply (Z.mod_unique _ _ e); lia).
  rewrite M0, M1, M2, Z.mod_small by lia. reflexivity.
Qed.
Lemma marker_inv old s v s1 : Forall (fun b => 0 <= b < 256) s -> readRecordSize old s = (true, v, s1) -> s = number v ++ s1 /\ fits v.
Proof.
  intros B. unfold readRecordSize, sgetn. change (Z.to_nat 4) with 4%nat.
  destruct (size (firstn 4 s) =? 4) eqn:E; [|discriminate]. intros H.
  assert (L : length (firstn 4 s) = 4%nat) by (apply Z.eqb_eq in E; unfold size in E; lia).
  assert (V : v = value (firstn 4 s)) by (rewrite firstn_exact in H by auto; congruence).
  assert (S1 : s1 = skipn 4 s) by congruence. clear H.
  assert (B4 : Forall (fun b => 0 <= b < 256) (firstn 4 s)).
  { rewrite <- (firstn_skipn 4 s) in B. now apply Forall_app in B. }
  destruct (bytes4 _ B4 L) as [E1 E2]. subst v s1. rewrite <- E1. split; [|exact E2].
  symmetry. apply firstn_skipn.
Qed.
Lemma marker_fails old s v s1 : readRecordSize old s = (false, v, s1) -> (length s < 4)%nat /\ s1 = s.
Proof.
  unfold readRecordSize, sgetn. change (Z.to_nat 4) with 4%nat.
  destruct (size (firstn 4 s) =? 4) eqn:E; [discriminate|]. intros H. split; [|congruence].
  apply Z.eqb_neq in E. unfold size in E. rewrite firstn_length in E. lia.
Qed.

Lemma read_inv n s r rest : Forall (fun b => 0 <= b < 256) s -> readRawRecord c n s = Some (r, rest) ->
  n = Z.of_nat (length r) /\ fits n /\ (s = record r ++ rest \/ ((length rest < 4)%nat /\ s = number n ++ r ++ rest)).
Proof using C.
  intros B. unfold readRawRecord, assert_debug. rewrite C.
  destruct (readRecordSize (atStart c) s) as [[ok v] s1] eqn:E1. destruct ok; [|discriminate]. cbn [andb].
  destruct (marker_inv _ _ _ _ B E1) as [-> F].
  destruct (Z.eqb_spec v n) as [->|]; [|discriminate]. unfold sgetn.
  destruct (n <? size (firstn (Z.to_nat n) s1)); [discriminate|].
  destruct (Z.eqb_spec (size (firstn (Z.to_nat n) s1)) n) as [L|]; [|discriminate]. unfold size in L.
  destruct (readRecordSize (atEnd c) (skipn (Z.to_nat n) s1)) as [[ok2 v2] s3] eqn:E2.
  destruct (Z.eqb_spec n v2) as [<-|]; [|discriminate]. intros H. injection H as <- <-.
  split; [lia|]. split; [exact F|].
  pose proof (firstn_skipn (Z.to_nat n) s1) as Sp. apply Forall_app in B. destruct B as [_ B]. rewrite <- Sp in B. apply Forall_app in B. destruct B as [_ B].
  destruct ok2.
  - left. destruct (marker_inv _ _ _ _ B E2) as [E _]. unfold record. rewrite <- Sp at 1. rewrite E at 1. rewrite L. now rewrite <- !app_assoc.
  - right. destruct (marker_fails _ _ _ _ E2) as [L2 ->]. split; [exact L2|]. now rewrite Sp.
Qed.
Lemma skip_inv n s rest : Forall (fun b => 0 <= b < 256) s -> skipRecord c n s = Some rest ->
  exists r, n = Z.of_nat (length r) /\ fits n /\ s = record r ++ rest.
Proof using C.
  intros B. unfold skipRecord, assert_debug. rewrite C.
  destruct (readRecordSize (atStart c) s) as [[ok v] s1] eqn:E1. destruct ok; [|discriminate]. cbn [andb].
  destruct (marker_inv _ _ _ _ B E1) as [-> F].
  destruct (Z.eqb_spec v n) as [->|]; [|discriminate].
  destruct (readRecordSize (atEnd c) (skipn (Z.to_nat n) s1)) as [[ok2 v2] s3] eqn:E2. destruct ok2; [|discriminate]. cbn [andb].
  destruct (Z.eqb_spec n v2) as [<-|]; [|discriminate]. intros H. injection H as <-.
  pose proof (firstn_skipn (Z.to_nat n) s1) as Sp. apply Forall_app in B. destruct B as [_ B]. rewrite <- Sp in B. apply Forall_app in B. destruct B as [_ B].
  destruct (marker_inv _ _ _ _ B E2) as [E _].
  assert (Z.to_nat n < length s1)%nat.
  { assert (length (skipn (Z.to_nat n) s1) = length (number n ++ s3)) by now rewrite E. rewrite skipn_length, app_length, number_length in H. lia. }
  exists (firstn (Z.to_nat n) s1). rewrite firstn_length, Nat.min_l by lia. unfold fits in F. split; [lia|]. split; [exact F|].
  unfold record. rewrite firstn_length, Nat.min_l by lia. rewrite Z2Nat.id by lia. rewrite <- Sp at 1. rewrite E at 1. now rewrite <- !app_assoc.
Qed.

(** groups *)
Section Groups.
Context (ft : Z).
Definition several (multi : bool) : bool := multi && (4 <? ft).

Lemma read_head multi n p s : fits n -> fits p ->
  readGroupSize c ft multi (head (several multi) n p ++ s) = Some (n, if several multi then p else n, s).
Proof using C.
  intros N P. unfold readGroupSize. fold (several multi). unfold head. destruct (several multi).
  - assert (R := read_record (number n ++ number p) s ltac:(unfold fits_record, fits; cbn; lia)).
    rewrite app_length, !number_length in R. change (Z.of_nat (4 + 4)) with 8 in R. rewrite R.
    rewrite firstn_exact, skipn_exact by reflexivity. rewrite (firstn_all2 (number p)) by (cbn; lia). now rewrite !value_number.
  - assert (R := read_record (number n) s ltac:(unfold fits_record, fits; cbn; lia)).
    rewrite number_length in R. change (Z.of_nat 4) with 4 in R. rewrite R.
    rewrite (firstn_all2 (number n)) by (cbn; lia). now rewrite !value_number.
Qed.

Lemma concat_size (l : list (list Z)) w : Forall (fun e => Z.of_nat (length e) = w) l -> Z.of_nat (length (concat l)) = Z.of_nat (length l) * w.
Proof. induction 1 as [|e l H _ IH]; [reflexivity|]. cbn [concat length]. rewrite app_length. lia. Qed.
Lemma record_length r : length (record r) = (8 + length r)%nat.
Proof. unfold record. rewrite !app_length, !number_length. lia. Qed.
Lemma lines_length {A} p (l : list A) lines : on_lines p l lines -> (1 <= length lines)%nat.
Proof. destruct 1; cbn; lia. Qed.
Lemma lines_positive {A} p (l : list A) lines : on_lines p l lines -> (0 < length l)%nat /\ (0 < p)%nat.
Proof. induction 1 as [l N L|l rest lines L O IH]; [destruct l; [easy|cbn in *; lia]|]. rewrite app_length. lia. Qed.
Lemma u32_small x : fits x -> u32 x = x.
Proof. intros F. apply Z.mod_small, F. Qed.

Lemma product_fits x a b : 0 <= x -> 0 < a -> 0 < b -> fits (x * a * b) -> fits x.
Proof. unfold fits. intros. assert (x <= x * a) by nia. assert (x * a <= x * a * b) by nia. lia. Qed.

Lemma read_lines p rest lines : on_lines p rest lines -> forall fuel bp comp done s,
  0 < comp -> 0 < bp -> Forall (fun e => Z.of_nat (length e) = comp * bp) (done ++ rest) ->
  fits (Z.of_nat (length (done ++ rest)) * comp * bp) -> (length lines <= fuel)%nat ->
  readLines c fuel bp (Z.of_nat (length (done ++ rest))) (Z.of_nat p) comp (Z.of_nat (length done))
    (concat done ++ repeat 0 (length (concat rest))) (concat (map (fun l => record (concat l)) lines) ++ s)
  = Some (concat (done ++ rest), s).
Proof using C.
  intros O. induction O as [l N L|l rest lines L O IH]; intros fuel bp comp done s Hc Hb F Ft Fu.
  - destruct fuel as [|fuel]; [cbn in Fu; lia|]. cbn [readLines].
    destruct l as [|e0 l0]; [easy|]. remember (e0 :: l0) as l eqn:El. assert (Ll : (0 < length l)%nat) by (subst; cbn; lia). clear El N.
    pose proof Ft as Ft'. rewrite app_length in Ft' |- *. unfold fits in Ft'.
    apply Forall_app in F as F2. destruct F2 as [Fd Fl]. pose proof (concat_size _ _ Fd) as Sd. pose proof (concat_size _ _ Fl) as Sl.
    destruct (Z.ltb_spec (Z.of_nat (length done)) (Z.of_nat (length done + length l))); [|lia].
    rewrite (Z.min_r (Z.of_nat p)) by lia.
    replace (Z.of_nat (length done + length l) - Z.of_nat (length done)) with (Z.of_nat (length l)) by lia.
    cbn [map concat]. rewrite app_nil_r.
    rewrite (u32_small (Z.of_nat (length done) * comp)) by (unfold fits; nia).
    rewrite (u32_small (Z.of_nat (length l) * comp)) by (unfold fits; nia).
    rewrite (u32_small (Z.of_nat (length l) * comp * bp)) by (unfold fits; nia).
    unfold readInto. replace (Z.of_nat (length l) * comp * bp) with (Z.of_nat (length (concat l))) by lia.
    rewrite read_record by (unfold fits_record, fits; nia).
    replace (Z.of_nat (length done) * comp * bp) with (Z.of_nat (length (concat done))) by lia.
    unfold size. rewrite app_length, repeat_length.
    destruct (Z.leb_spec (Z.of_nat (length (concat done)) + Z.of_nat (length (concat l))) (Z.of_nat (length (concat done) + length (concat l)))); [|lia].
    rewrite Nat2Z.id, firstn_exact by reflexivity.
    rewrite skipn_all2 by (rewrite app_length, repeat_length; lia). rewrite app_nil_r.
    rewrite u32_small by (apply (product_fits _ comp bp); [lia..|unfold fits; lia]). rewrite concat_app.
    replace (Z.of_nat (length done) + Z.of_nat (length l)) with (Z.of_nat (length done + length l)) by lia.
    destruct fuel; cbn [readLines]; now rewrite Z.ltb_irrefl, Z.eqb_refl.
  - destruct fuel as [|fuel]; [cbn in Fu; lia|]. cbn [readLines].
    destruct (lines_positive _ _ _ O) as [R0 P0].
    pose proof Ft as Ft'. rewrite !app_length in Ft' |- *. unfold fits in Ft'.
    apply Forall_app in F as F2. destruct F2 as [Fd Flr]. apply Forall_app in Flr as F3. destruct F3 as [Fl Fr].
    pose proof (concat_size _ _ Fd) as Sd. pose proof (concat_size _ _ Fl) as Sl.
    destruct (Z.ltb_spec (Z.of_nat (length done)) (Z.of_nat (length done + (length l + length rest)))); [|lia].
    rewrite (Z.min_l (Z.of_nat p)) by lia. rewrite <- L in *.
    cbn [map concat]. rewrite <- app_assoc.
    rewrite (u32_small (Z.of_nat (length done) * comp)) by (unfold fits; nia).
    rewrite (u32_small (Z.of_nat (length l) * comp)) by (unfold fits; nia).
    rewrite (u32_small (Z.of_nat (length l) * comp * bp)) by (unfold fits; nia).
    unfold readInto. replace (Z.of_nat (length l) * comp * bp) with (Z.of_nat (length (concat l))) by lia.
    rewrite read_record by (unfold fits_record, fits; nia).
    replace (Z.of_nat (length done) * comp * bp) with (Z.of_nat (length (concat done))) by lia.
    unfold size. rewrite concat_app, !app_length, repeat_length.
    destruct (Z.leb_spec (Z.of_nat (length (concat done)) + Z.of_nat (length (concat l))) (Z.of_nat (length (concat done) + (length (concat l) + length (concat rest))))); [|lia].
    rewrite Nat2Z.id, firstn_exact by reflexivity.
    rewrite u32_small by (apply (product_fits _ comp bp); [lia..|unfold fits; nia]).
    specialize (IH fuel bp comp (done ++ l) s Hc Hb). rewrite <- !app_assoc in IH. specialize (IH F Ft ltac:(cbn in Fu; lia)).
    rewrite !app_length, !concat_app in IH.
    replace (Z.of_nat (length done) + Z.of_nat (length l)) with (Z.of_nat (length done + length l)) by lia.
    rewrite concat_app, concat_app. rewrite <- IH. f_equal.
    rewrite repeat_app, <- app_assoc. f_equal. f_equal.
    rewrite app_assoc, skipn_exact; [reflexivity|]. rewrite app_length, repeat_length. lia.
Qed.

Lemma read_group multi bp comp entries g s :
  0 < comp -> 0 < bp -> Forall (fun e => Z.of_nat (length e) = comp * bp) entries ->
  fits (Z.of_nat (length entries) * comp * bp) -> group (several multi) entries g ->
  readGroup c ft bp comp multi (g ++ s) = Some (Z.of_nat (length entries), concat entries, s).
Proof using C.
  intros Hc Hb F Ft G. unfold readGroup. destruct G as [p E P|p lines N P One O].
  - subst entries. rewrite <- app_assoc, read_head by (assumption || (unfold fits; lia)). cbn [Z.mul Z.eqb].
    assert (R := read_record [] s ltac:(unfold fits_record, fits; cbn; lia)). cbn [length Z.of_nat] in R. now rewrite R.
  - rewrite <- app_assoc, read_head by assumption.
    assert (Q : (if several multi then Z.of_nat p else Z.of_nat (length entries)) = Z.of_nat p).
    { destruct (several multi); [reflexivity|]. now rewrite One. }
    rewrite Q. pose proof (concat_size _ _ F) as Sz.
    destruct (lines_positive _ _ _ O) as [L0 _].
    destruct (Z.eqb_spec (Z.of_nat (length entries) * comp) 0); [nia|].
    replace (Z.to_nat (Z.of_nat (length entries) * comp * bp)) with (length (concat entries)) by lia.
    pose proof (read_lines p entries lines O (S (length (concat (map (fun l => record (concat l)) lines) ++ s))) bp comp [] s Hc Hb F Ft) as R.
    cbn [app length concat] in R. change (Z.of_nat 0) with 0 in R. rewrite R; [reflexivity|].
    rewrite app_length. clear. induction lines as [|l r IH]; cbn [length map concat]; [lia|]. rewrite app_length, record_length. cbn [length] in IH. lia.
Qed.

(** groups that are skipped *)
Lemma skip_lines p n : 0 < p -> forall records s fuel read, Forall fits_record records -> (length records < fuel)%nat ->
  (forall k, (k < length records)%nat -> read + Z.of_nat k * p < n) -> n <= read + Z.of_nat (length records) * p ->
  skipLines c fuel n p read (concat (map record records) ++ s) = Some s.
Proof using C.
  intros P records. induction records as [|r rs IH]; intros s fuel read F L Lo Hi.
  - cbn [map concat app length] in *. destruct fuel; cbn [skipLines]; (destruct (Z.ltb_spec read n); [lia|reflexivity]).
  - destruct fuel as [|fuel]; [cbn in L; lia|]. cbn [skipLines]. inversion_clear F as [|? ? F1 F2].
    specialize (Lo O ltac:(cbn; lia)) as L0. destruct (Z.ltb_spec read n); [|lia].
    cbn [map concat]. rewrite <- app_assoc, peek_record, skip_record by exact F1.
    apply IH; [exact F2|cbn in L; lia| |cbn [length] in Hi; lia].
    intros k Hk. specialize (Lo (S k) ltac:(cbn; lia)). lia.
Qed.
Lemma needed_bounds n p : 0 < n -> 0 < p -> 0 < lines_needed n p /\ (lines_needed n p - 1) * p < n /\ n <= lines_needed n p * p.
Proof.
  intros N P. unfold lines_needed. pose proof (Z.div_mod (n + p - 1) p ltac:(lia)). pose proof (Z.mod_pos_bound (n + p - 1) p P).
  assert (0 < (n + p - 1) / p) by (apply Z.div_str_pos; lia). nia.
Qed.
Lemma skip_properties n p : 0 < n -> 0 < p -> forall k records s, Forall fits_record records ->
  Z.of_nat (length records) = Z.of_nat k * lines_needed n p ->
  skipProperties c k n p (concat (map record records) ++ s) = Some s.
Proof using C.
  intros N P. destruct (needed_bounds n p N P) as [B0 [B1 B2]]. induction k as [|k IH]; intros records s F L.
  - destruct records; [reflexivity|cbn [length] in L; lia].
  - cbn [skipProperties]. set (m := Z.to_nat (lines_needed n p)).
    assert (Lm : (m <= length records)%nat) by (unfold m; nia).
    rewrite <- (firstn_skipn m records) in F |- *. apply Forall_app in F as [F1 F2].
    rewrite map_app, concat_app, <- app_assoc.
    assert (L1 : length (firstn m records) = m) by (rewrite firstn_length; lia).
    assert (H : forall t, skipLines c (S (length (concat (map record (firstn m records)) ++ t))) n p 0 (concat (map record (firstn m records)) ++ t) = Some t).
    { intros t. apply skip_lines; [exact P|exact F1| | |].
      - rewrite app_length. clear. generalize (firstn m records). intros l. induction l as [|r l I]; cbn [length map concat]; [lia|]. rewrite app_length, record_length. cbn [length] in I. lia.
      - rewrite L1. intros j Hj. unfold m in Hj. nia.
      - rewrite L1. unfold m. rewrite Z2Nat.id by lia. lia. }
    rewrite H. apply IH; [exact F2|]. rewrite skipn_length. unfold m. nia.
Qed.
Lemma skip_group multi k n g s : unread_group (several multi) k n g -> skipGroup c ft k multi (g ++ s) = Some (n, s).
Proof using C.
  intros G. unfold skipGroup. destruct G as [p N P|p records N P Fn Fp One F L].
  - subst n. rewrite <- app_assoc, read_head by (assumption || (unfold fits; lia)). cbn [Z.eqb].
    assert (R := skip_record [] s ltac:(unfold fits_record, fits; cbn; lia)). cbn [length Z.of_nat] in R. now rewrite R.
  - rewrite <- app_assoc, read_head by assumption. destruct (Z.eqb_spec n 0); [lia|].
    assert (Q : (if several multi then p else n) = p) by (destruct (several multi); [reflexivity|]; now rewrite One).
    rewrite Q. now rewrite skip_properties.
Qed.

(** elements *)
Lemma numbers_length e : length (numbers e) = (4 * length e)%nat.
Proof. unfold numbers. induction e as [|x e IH]; [reflexivity|]. cbn [map concat]. rewrite app_length, number_length, IH. cbn [length]. lia. Qed.
Lemma words_numbers e s : Forall fits e -> words (length e) (numbers e ++ s) = e.
Proof.
  intros F. unfold numbers. induction F as [|x e H _ IH]; [reflexivity|]. cbn [map concat length words]. rewrite <- app_assoc.
  rewrite firstn_exact, skipn_exact by reflexivity. now rewrite value_number, IH.
Qed.
Definition typed (t : nat) : Prop := (t < if is3D ft then 4 else 2)%nat.
Notation good_element := (good_element (is3D ft)).
Lemma nodes_corners t : typed t -> numNodes ft t = Some (Z.of_nat (length (centaur_corners (is3D ft) t))) /\
  (0 < length (centaur_corners (is3D ft) t) <= 8)%nat.
Proof.
  unfold typed, numNodes, centaur_corners. destruct (is3D ft); intros H; destruct t as [|[|[|[|t]]]]; try lia; cbn; split; (reflexivity || lia).
Qed.
Lemma good_fits t e : good_element t e -> Forall fits e.
Proof. intros [_ F]. eapply Forall_impl; [|exact F]. unfold fits. intros; lia. Qed.
Lemma lowered e : Forall (fun x => 1 <= x < 2 ^ 32) e -> map (fun x => u32 (x - 1)) e = map (fun x => x - 1) e.
Proof. intros F. apply map_ext_in. intros x Hx. rewrite Forall_forall in F. specialize (F x Hx). apply u32_small. unfold fits. lia. Qed.
Lemma reorder_same t e : typed t -> good_element t e ->
  exists l, reorderElementCoords ft t (map (fun x => u32 (x - 1)) e) = Some l /\ same_element (is3D ft) t e l.
Proof.
  intros T [L' F]. rewrite lowered by exact F. clear F. unfold typed in T. unfold centaur_corners in L'. unfold reorderElementCoords, same_element, centaur_corners, hpgem_corners.
  destruct (is3D ft); destruct t as [|[|[|[|t]]]]; try lia; clear T; cbn [nth around triangle square app length] in L'.
  all: repeat (destruct e as [|? e]; try discriminate L'; cbn [length] in L'; try (injection L' as L')).
  all: cbn [map]; eexists; (split; [reflexivity|]); (split; [reflexivity|]).
  all: intros k corner H; cbn [nth around triangle square app] in H |- *.
  all: destruct k as [|[|[|[|[|[|[|[|k]]]]]]]]; cbn [nth_error] in H; try discriminate H; try (destruct k; discriminate H).
  all: injection H as <-.
  all: first [now (exists 0%nat; eexists; repeat split; reflexivity) | now (exists 1%nat; eexists; repeat split; reflexivity) | now (exists 2%nat; eexists; repeat split; reflexivity)
             | now (exists 3%nat; eexists; repeat split; reflexivity) | now (exists 4%nat; eexists; repeat split; reflexivity) | now (exists 5%nat; eexists; repeat split; reflexivity)
             | now (exists 6%nat; eexists; repeat split; reflexivity) | now (exists 7%nat; eexists; repeat split; reflexivity)].
Qed.
Lemma elements_of t es s : typed t -> Forall (good_element t) es ->
  exists ls, elementsOf ft (length es) (length (centaur_corners (is3D ft) t)) t (concat (map numbers es) ++ s) = Some ls /\ Forall2 (same_element (is3D ft) t) es ls.
Proof.
  intros T F. induction F as [|e es G _ [ls [IH1 IH2]]]; [exists []; split; [reflexivity|constructor]|].
  destruct (reorder_same t e T G) as [l [R1 R2]]. exists (l :: ls). split; [|constructor; assumption].
  cbn [length elementsOf map concat]. rewrite <- app_assoc. rewrite <- (proj1 G) in IH1 |- *.
  rewrite words_numbers by exact (good_fits t e G). rewrite R1.
  rewrite skipn_exact by (rewrite numbers_length; reflexivity). now rewrite IH1.
Qed.
Lemma read_elements t es g s : typed t -> elements_group (several true) (is3D ft) t es g ->
  exists ls, readElements c ft t (g ++ s) = Some (ls, s) /\ Forall2 (same_element (is3D ft) t) es ls.
Proof using C.
  intros T [F [Ft G]]. unfold readElements. destruct (nodes_corners t T) as [-> N].
  rewrite (read_group true 4 _ (map numbers es) g s); [|lia|lia| | |exact G].
  - rewrite map_length, !Nat2Z.id. destruct (elements_of t es [] T F) as [ls [E1 E2]]. rewrite app_nil_r in E1. rewrite E1. now exists ls.
  - apply Forall_map. eapply Forall_impl; [|exact F]. intros e [Ge _]. rewrite numbers_length, Ge. lia.
  - rewrite map_length. unfold fits in *. nia.
Qed.
Lemma forall2_length {A B} {P : A -> B -> Prop} {l m} : Forall2 P l m -> length l = length m.
Proof. induction 1; cbn; congruence. Qed.
Lemma read_types types : Forall typed types -> forall elements gs s,
  Forall2 (fun t p => elements_group (several true) (is3D ft) t (fst p) (snd p)) types (combine elements gs) -> length gs = length elements ->
  exists lss, readTypes c ft types (concat gs ++ s) = Some (concat lss, map (@length _) elements, s) /\
    Forall2 (fun t p => Forall2 (same_element (is3D ft) t) (fst p) (snd p)) types (combine elements lss) /\ length lss = length elements.
Proof using C.
  induction 1 as [|t ts T _ IH]; intros elements gs s D L.
  - inversion D as [E|]. destruct elements, gs; try discriminate. exists []. cbn. repeat split. constructor.
  - destruct elements as [|es elems], gs as [|g gs]; try discriminate; [inversion D|]. cbn [combine] in D. inversion D as [|? ? ? ? G D2]; subst.
    destruct (IH elems gs s D2 ltac:(cbn in L; lia)) as [lss [I1 [I2 I3]]].
    destruct (read_elements t es g (concat gs ++ s) T G) as [ls [R1 R2]].
    exists (ls :: lss). cbn [readTypes concat]. rewrite <- app_assoc, R1, I1. split; [|split].
    + cbn [map]. now rewrite (forall2_length R2).
    + cbn [combine]. constructor; [exact R2|exact I2].
    + cbn [length]. now rewrite I3.
Qed.

(** coordinates *)
Lemma pieces_concat w (l : list (list Z)) : Forall (fun x => length x = w) l -> pieces (length l) w (concat l) = l.
Proof.
  induction 1 as [|x l H _ IH]; [reflexivity|]. cbn [length pieces concat]. rewrite firstn_exact, skipn_exact by auto. now rewrite IH.
Qed.
Lemma concat_width (l : list (list Z)) w : Forall (fun x => length x = w) l -> length (concat l) = (length l * w)%nat.
Proof. induction 1 as [|x l H _ IH]; [reflexivity|]. cbn [concat length]. rewrite app_length, H, IH. lia. Qed.
Lemma read_coordinates nodes g s : coordinates_group (several true) (is3D ft) nodes g -> readCoordinates c ft (g ++ s) = Some (nodes, s).
Proof using C.
  intros [F [Ft G]]. unfold readCoordinates. fold (dimension ft) in F. change (if is3D ft then 3%nat else 2%nat) with (dimension ft) in F.
  assert (D : (2 <= dimension ft <= 3)%nat) by (unfold dimension; destruct (is3D ft); lia).
  assert (F2 : Forall (fun e => length e = (dimension ft * 8)%nat) (map (@concat Z) nodes)).
  { apply Forall_map. eapply Forall_impl; [|exact F]. intros node [H1 H2]. now rewrite (concat_width node 8 H2), H1. }
  rewrite (read_group true 8 (Z.of_nat (dimension ft)) (map (@concat Z) nodes) g s); [|lia|lia| | |exact G].
  - rewrite (concat_width _ _ F2), map_length.
    replace (length nodes * (dimension ft * 8))%nat with (length nodes * dimension ft * 8)%nat by lia.
    rewrite !Nat.div_mul by lia.
    pose proof (pieces_concat _ _ F2) as P. rewrite map_length in P. rewrite P. f_equal. f_equal.
    rewrite map_map. rewrite <- (map_id nodes) at 2. apply map_ext_in. intros node Hn. rewrite Forall_forall in F. destruct (F node Hn) as [H1 H2].
    rewrite <- H1. now apply pieces_concat.
  - eapply Forall_impl; [|exact F2]. cbn beta. intros e ->. lia.
  - rewrite map_length. unfold fits in *. nia.
Qed.

(** periodic connections *)
Definition kept (pairs : list (Z * Z)) : list (Z * Z) := map (fun p => (fst p - 1, snd p - 1)) (filter (fun p => negb (snd p =? 0)) pairs).
Lemma pairs_numbers (pairs : list (Z * Z)) : concat (map (fun p => number (fst p) ++ number (snd p)) pairs) = numbers (flat_map (fun p => [fst p; snd p]) pairs).
Proof. unfold numbers. induction pairs as [|p r IH]; [reflexivity|]. cbn [map concat flat_map app]. rewrite IH. now rewrite <- app_assoc. Qed.
Lemma merges_kept pairs : Forall (fun p => 1 <= fst p < 2 ^ 32 /\ fits (snd p)) pairs -> mergesOf (flat_map (fun p => [fst p; snd p]) pairs) = kept pairs.
Proof.
  unfold fits. change (2 ^ 32) with 4294967296. unfold kept. induction 1 as [|[a b] r [H1 H2] _ IH]; [reflexivity|]. cbn [flat_map app mergesOf filter fst snd] in *. rewrite IH.
  unfold u32. change (2 ^ 32) with 4294967296. destruct (Z.eqb_spec b 0) as [->|N]; cbn [negb map fst snd].
  - reflexivity.
  - rewrite !Z.mod_small by lia. destruct (Z.eqb_spec (b - 1) (4294967296 - 1)); [lia|reflexivity].
Qed.
Lemma flat_pairs_length (pairs : list (Z * Z)) : length (flat_map (fun p => [fst p; snd p]) pairs) = (2 * length pairs)%nat.
Proof. induction pairs as [|p r IH]; [reflexivity|]. cbn [flat_map app length]. rewrite IH. lia. Qed.
Lemma read_plain_head n s : fits n -> readGroupSize c ft false (record (number n) ++ s) = Some (n, n, s).
Proof using C. intros N. exact (read_head false n n s N N). Qed.
Lemma read_connection pairs b s : connection (is3D ft) pairs b -> readConnection c ft (b ++ s) = Some (kept pairs, s).
Proof using C.
  intros [t1 [t2 [L1 [L2 [Fp [F ->]]]]]]. unfold readConnection. rewrite <- !app_assoc.
  assert (T : 4 + Z.of_nat (S (dimension ft) * S (dimension ft)) * 8 = Z.of_nat (length t1)).
  { rewrite L1. unfold dimension. destruct (is3D ft); reflexivity. }
  assert (Ft : fits_record t1) by (unfold fits_record, fits; rewrite L1; destruct (is3D ft); cbn; lia).
  rewrite T, skip_record by exact Ft. rewrite <- L2. rewrite skip_record by (unfold fits_record in *; now rewrite L2).
  unfold fits in Fp. rewrite read_plain_head by (unfold fits; lia).
  rewrite pairs_numbers. set (l := flat_map _ pairs).
  assert (Ln : length (numbers l) = (8 * length pairs)%nat) by (rewrite numbers_length; unfold l; rewrite flat_pairs_length; lia).
  rewrite u32_small by (unfold fits; lia).
  replace (2 * Z.of_nat (length pairs) * 4) with (Z.of_nat (length (numbers l))) by lia.
  rewrite read_record by (unfold fits_record, fits; lia). unfold size. rewrite Z.eqb_refl.
  replace (Z.to_nat (2 * Z.of_nat (length pairs))) with (length l) by (unfold l; rewrite flat_pairs_length; lia).
  rewrite <- (app_nil_r (numbers l)), words_numbers. { unfold l. now rewrite merges_kept. }
  unfold l. clear - F. induction F as [|p r [H1 H2] _ IH]; [constructor|]. cbn [flat_map app]. constructor; [unfold fits; lia|]. constructor; assumption.
Qed.
Lemma read_connections l b s : connections (is3D ft) l b -> 3 < ft \/ is3D ft = false -> readPeriodicNodeConnections c ft (b ++ s) = Some (map kept l, s).
Proof using C.
  intros [Fl [bs [F ->]]] K. unfold readPeriodicNodeConnections.
  replace ((3 <? ft) || negb (is3D ft)) with true. 2:{ symmetry. apply orb_true_iff. destruct K as [K|K]; [left; now apply Z.ltb_lt|right; now rewrite K]. }
  rewrite <- app_assoc, read_plain_head by exact Fl. rewrite Nat2Z.id. clear Fl K.
  induction F as [|p b l bs H _ IH]; [reflexivity|]. cbn [length readConnections concat map]. rewrite <- app_assoc, (read_connection p b _ H). now rewrite IH.
Qed.
End Groups.
End Checked.
