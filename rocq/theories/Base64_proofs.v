From Coq Require Import List NArith String Ascii Arith Bool Lia.
From Verif Require Import Base64_model Base64_spec.
Import ListNotations.

Definition bits6 (v : N) : list bool := map (N.testbit v) [5; 4; 3; 2; 1; 0]%N.

Lemma digit_sweep :
  forallb (fun k => match digit (N.of_nat k) with
                    | Some c => Ascii.eqb c (rfc_char (bits6 (N.of_nat k)))
                                && negb (Ascii.eqb c pad)
                                && match char_bits c with
                                   | Some b => forallb (fun p => Bool.eqb (fst p) (snd p))
                                                       (combine b (bits6 (N.of_nat k)))
                                               && (List.length b =? 6)
                                   | None => false end
                    | None => false end) (seq 0 64) = true.
Proof. vm_compute. reflexivity. Qed.

Lemma combine_eqb (a b : list bool) :
  List.length a = List.length b ->
  forallb (fun p => Bool.eqb (fst p) (snd p)) (combine a b) = true -> a = b.
Proof.
  revert b; induction a as [|x a IH]; intros [|y b]; simpl; try discriminate; auto.
  intros Hl H. apply andb_prop in H as [H1 H2].
  apply Bool.eqb_prop in H1. f_equal; auto.
Qed.

Lemma digit_ok (v : N) :
  (v < 64)%N ->
  digit v = Some (rfc_char (bits6 v)) /\ rfc_char (bits6 v) <> pad /\
  char_bits (rfc_char (bits6 v)) = Some (bits6 v).
Proof.
  intros Hv.
  pose proof digit_sweep as H. rewrite forallb_forall in H.
  assert (Hi : In (N.to_nat v) (seq 0 64)) by (apply in_seq; lia).
  specialize (H _ Hi). rewrite N2Nat.id in H.
  destruct (digit v) as [c|]; [|discriminate].
  apply andb_prop in H as [H H3]. apply andb_prop in H as [H1 H2].
  apply Ascii.eqb_eq in H1. subst c.
  split; [reflexivity|split].
  - intros E. rewrite E, Ascii.eqb_refl in H2. discriminate.
  - destruct (char_bits _) as [b|]; [|discriminate].
    apply andb_prop in H3 as [H3 H4]. apply Nat.eqb_eq in H4.
    f_equal. apply combine_eqb; auto.
Qed.

Lemma lt64_testbits (v : N) :
  (forall k, (6 <= k)%N -> N.testbit v k = false) -> (v < 64)%N.
Proof.
  intros H. destruct (N.eq_dec v 0) as [->|Hv]; [lia|].
  destruct (N.lt_ge_cases (N.log2 v) 6) as [Hl|Hl].
  - change 64%N with (2^6)%N. apply N.log2_lt_pow2; lia.
  - specialize (H _ Hl). rewrite N.bit_log2 in H by exact Hv. discriminate.
Qed.

Lemma mask_high (m k : N) : (m < 64)%N -> (6 <= k)%N -> N.testbit m k = false.
Proof.
  intros Hm Hk. destruct (N.eq_dec m 0) as [->|H0]; [apply N.bits_0|].
  apply N.bits_above_log2. eapply N.lt_le_trans; [|exact Hk].
  apply N.log2_lt_pow2; [lia|exact Hm].
Qed.

Ltac small := apply lt64_testbits; intros k Hk;
  rewrite ?N.lor_spec, ?N.land_spec, ?(mask_high 63 k), ?(mask_high 48 k), ?(mask_high 15 k),
    ?(mask_high 60 k), ?(mask_high 3 k), ?Bool.andb_false_r by (exact Hk || lia); reflexivity.

Lemma idx0_lt a : (idx0 a < 64)%N. Proof. unfold idx0. small. Qed.
Lemma idx1_lt a b : (idx1 a b < 64)%N. Proof. unfold idx1. small. Qed.
Lemma idx2_lt a b : (idx2 a b < 64)%N. Proof. unfold idx2. small. Qed.
Lemma idx3_lt a : (idx3 a < 64)%N. Proof. unfold idx3. small. Qed.
Lemma tail1_lt a : (N.land (N.shiftl a 4) 48 < 64)%N. Proof. small. Qed.
Lemma tail2_lt a : (N.land (N.shiftl a 2) 60 < 64)%N. Proof. small. Qed.

Lemma shl_hi a n k : (n <= k)%N -> N.testbit (N.shiftl a n) k = N.testbit a (k - n).
Proof. intros; apply N.shiftl_spec_high'; exact H. Qed.

Ltac bits := unfold bits6; cbn [map];
  rewrite ?N.lor_spec, ?N.land_spec, ?N.shiftr_spec';
  repeat match goal with
         | |- context [N.testbit (N.shiftl ?a ?n) ?k] =>
             first [ rewrite (shl_hi a n k) by (vm_compute; discriminate)
                   | rewrite (N.shiftl_spec_low a n k) by reflexivity ]
         end;
  repeat match goal with
         | |- context [(?x + ?y)%N] => let v := eval vm_compute in (x + y)%N in change (x + y)%N with v
         | |- context [(?x - ?y)%N] => let v := eval vm_compute in (x - y)%N in change (x - y)%N with v
         | |- context [N.testbit (Npos ?m) ?k] =>
             let v := eval vm_compute in (N.testbit (Npos m) k) in change (N.testbit (Npos m) k) with v
         end;
  rewrite ?Bool.andb_true_r, ?Bool.andb_false_r, ?Bool.orb_false_r, ?Bool.orb_false_l;
  try reflexivity.

Lemma idx0_bits a : bits6 (idx0 a) = map (N.testbit a) [7;6;5;4;3;2]%N.
Proof. unfold idx0. bits. Qed.
Lemma idx1_bits a b :
  bits6 (idx1 a b) = map (N.testbit a) [1;0]%N ++ map (N.testbit b) [7;6;5;4]%N.
Proof. unfold idx1. cbn [map app]. bits. Qed.
Lemma idx2_bits b c :
  bits6 (idx2 b c) = map (N.testbit b) [3;2;1;0]%N ++ map (N.testbit c) [7;6]%N.
Proof. unfold idx2. cbn [map app]. bits. Qed.
Lemma idx3_bits c : bits6 (idx3 c) = map (N.testbit c) [5;4;3;2;1;0]%N.
Proof. unfold idx3. bits. Qed.
Lemma tail1_bits a :
  bits6 (N.land (N.shiftl a 4) 48) = map (N.testbit a) [1;0]%N ++ [false;false;false;false].
Proof. cbn [map app]. bits. Qed.
Lemma tail2_bits a :
  bits6 (N.land (N.shiftl a 2) 60) = map (N.testbit a) [3;2;1;0]%N ++ [false;false].
Proof. cbn [map app]. bits. Qed.

Lemma list3_ind {A} (P : list A -> Prop) :
  P [] -> (forall a, P [a]) -> (forall a b, P [a; b]) ->
  (forall a b c l, P l -> P (a :: b :: c :: l)) -> forall l, P l.
Proof.
  intros H0 H1 H2 H3.
  fix IH 1. intros [|a [|b [|c l]]]; [exact H0|apply H1|apply H2|apply H3, IH].
Qed.

Lemma padding_add3 n : padding (S (S (S n))) = padding n.
Proof.
  unfold padding. replace (S (S (S n))) with (n + 1 * 3) by lia.
  rewrite Nat.mod_add by lia. reflexivity.
Qed.

Lemma rfc_char_bits v (l : list bool) : bits6 v = l -> (v < 64)%N -> digit v = Some (rfc_char l).
Proof. intros <- Hv. apply digit_ok, Hv. Qed.

Lemma toBase64_rfc (raw : list N) : toBase64 raw = Some (rfc_encode raw).
Proof.
  induction raw as [|a|a b|a b c l IH] using list3_ind.
  - reflexivity.
  - cbn [toBase64 push_all].
    rewrite (rfc_char_bits _ _ (idx0_bits a) (idx0_lt a)).
    rewrite (rfc_char_bits _ _ (tail1_bits a) (tail1_lt a)).
    reflexivity.
  - cbn [toBase64 push_all].
    rewrite (rfc_char_bits _ _ (idx0_bits a) (idx0_lt a)).
    rewrite (rfc_char_bits _ _ (idx1_bits a b) (idx1_lt a b)).
    rewrite (rfc_char_bits _ _ (tail2_bits b) (tail2_lt b)).
    reflexivity.
  - cbn [toBase64 push_all].
    rewrite (rfc_char_bits _ _ (idx0_bits a) (idx0_lt a)).
    rewrite (rfc_char_bits _ _ (idx1_bits a b) (idx1_lt a b)).
    rewrite (rfc_char_bits _ _ (idx2_bits b c) (idx2_lt b c)).
    rewrite (rfc_char_bits _ _ (idx3_bits c) (idx3_lt c)).
    rewrite IH. unfold rfc_encode.
    cbn [List.length]. rewrite padding_add3. reflexivity.
Qed.

(** length *)
Lemma rfc_encode_length (raw : list N) :
  List.length (rfc_encode raw) = 4 * ((List.length raw + 2) / 3).
Proof.
  induction raw as [|a|a b|a b c l IH] using list3_ind; try reflexivity.
  unfold rfc_encode in *. cbn [List.length]. rewrite padding_add3.
  cbn [map List.concat bits_of_byte app sextets List.length].
  rewrite !app_length in *. cbn [map List.length] in *.
  replace (S (S (S (List.length l))) + 2) with ((List.length l + 2) + 1 * 3) by lia.
  rewrite Nat.div_add by lia. lia.
Qed.

(** decoding *)
Lemma value_bits_of_byte b : (b < 256)%N -> value_of_bits (bits_of_byte b) = b.
Proof.
  intros Hb.
  assert (H : forallb (fun k => N.eqb (value_of_bits (bits_of_byte (N.of_nat k))) (N.of_nat k))
                      (seq 0 256) = true) by (vm_compute; reflexivity).
  rewrite forallb_forall in H.
  specialize (H (N.to_nat b)). rewrite N2Nat.id in H.
  apply N.eqb_eq, H, in_seq. lia.
Qed.

Definition six (l : list bool) := exists v, (v < 64)%N /\ bits6 v = l.

Lemma char_bits_six l : six l -> char_bits (rfc_char l) = Some l /\ rfc_char l <> pad.
Proof. intros [v [Hv <-]]. destruct (digit_ok v Hv) as [_ [A B]]. auto. Qed.

Lemma payload_cons c r b bs :
  char_bits c = Some b -> c <> pad -> payload r = Some bs -> payload (c :: r) = Some (b ++ bs).
Proof.
  intros Hc Hp Hr. cbn [payload].
  destruct (Ascii.eqb c "="%char) eqn:E.
  - apply Ascii.eqb_eq in E. contradiction.
  - rewrite Hc, Hr. reflexivity.
Qed.

Lemma payload_six l r bs : six l -> payload r = Some bs -> payload (rfc_char l :: r) = Some (l ++ bs).
Proof. intros H Hr. destruct (char_bits_six l H). apply payload_cons; auto. Qed.

Lemma six6 a b c d e f : six [a;b;c;d;e;f].
Proof.
  exists (value_of_bits [a;b;c;d;e;f]).
  destruct a, b, c, d, e, f; (split; [reflexivity | reflexivity]).
Qed.

Lemma payload_encode (raw : list N) :
  Forall is_byte raw ->
  exists bs, payload (rfc_encode raw) = Some bs /\ octets bs = raw.
Proof.
  induction raw as [|a|a b|a b c l IH] using list3_ind; intros HF.
  - exists []. split; reflexivity.
  - eexists. split.
    + unfold rfc_encode. cbn [map List.concat bits_of_byte app sextets firstn List.length padding Nat.modulo].
      apply payload_six; [apply six6|]. apply payload_six; [apply six6|]. reflexivity.
    + cbn [app octets]. f_equal. apply (value_bits_of_byte a). inversion HF; assumption.
  - inversion HF as [|? ? Ha HF1]; subst. inversion HF1 as [|? ? Hb _]; subst.
    eexists. split.
    + unfold rfc_encode. cbn [map List.concat bits_of_byte app sextets firstn List.length padding Nat.modulo].
      do 3 (apply payload_six; [apply six6|]). reflexivity.
    + cbn [app octets]. f_equal; [|f_equal]; apply value_bits_of_byte; assumption.
  - inversion HF as [|? ? Ha HF1]; subst. inversion HF1 as [|? ? Hb HF2]; subst.
    inversion HF2 as [|? ? Hc HF3]; subst.
    destruct (IH HF3) as [bs [E1 E2]].
    eexists. split.
    + unfold rfc_encode in *. cbn [List.length]. rewrite padding_add3.
      cbn [map List.concat bits_of_byte app sextets].
      do 4 (apply payload_six; [apply six6|]). exact E1.
    + cbn [app octets]. rewrite E2.
      f_equal; [|f_equal; [|f_equal]]; apply value_bits_of_byte; assumption.
Qed.

Lemma decode_encode (raw : list N) :
  Forall is_byte raw -> rfc_decode (rfc_encode raw) = Some raw.
Proof.
  intros H. destruct (payload_encode raw H) as [bs [E1 E2]].
  unfold rfc_decode. rewrite rfc_encode_length.
  replace (4 * ((List.length raw + 2) / 3)) with ((List.length raw + 2) / 3 * 4) by lia.
  rewrite Nat.mod_mul by lia. rewrite Nat.eqb_refl, E1, E2. reflexivity.
Qed.

Lemma toBase64_roundtrip (raw : list N) :
  Forall is_byte raw ->
  exists s, toBase64 raw = Some s /\ rfc_decode s = Some raw /\
            List.length s = 4 * ((List.length raw + 2) / 3).
Proof.
  intros H. exists (rfc_encode raw).
  split; [apply toBase64_rfc|split; [apply decode_encode, H|apply rfc_encode_length]].
Qed.
