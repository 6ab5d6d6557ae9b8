(** Proofs about CommandLine_model. *)
From Coq Require Import String Ascii List Arith Bool ZArith Lia.
From Verif Require Import CommandLine_model CommandLine_spec.
Import ListNotations.

Lemma same_word_eq : forall a b, same_word a b = true <-> a = b.
Proof. intros a b. unfold same_word. destruct list_eq_dec; split; congruence. Qed.

(** ** numbers *)
Lemma digitOf_nat : forall d, d <= 9 -> digitOf (ascii_of_nat (48 + d)) = Some (Z.of_nat d).
Proof. intros d H. do 10 (destruct d; [reflexivity|]). lia. Qed.
Lemma digitOf_some : forall c z, digitOf c = Some z -> exists d, d <= 9 /\ c = ascii_of_nat (48 + d) /\ z = Z.of_nat d.
Proof.
  intros c z H. unfold digitOf in H. destruct (_ && _)%bool eqn:E; [|discriminate]. injection H as <-. apply andb_true_iff in E. destruct E as (E1 & E2). apply Z.leb_le in E1, E2.
  exists (nat_of_ascii c - 48). split; [lia|]. split; [|lia]. rewrite <- (ascii_nat_embedding c) at 1. f_equal. lia.
Qed.
Lemma readDigits_app : forall w n w', readDigits n (w ++ w') = match readDigits n w with (m, []) => readDigits m w' | (m, r) => (m, r ++ w') end.
Proof.
  induction w as [|c w IH]; intros n w'; [reflexivity|]. cbn [app readDigits]. destruct (digitOf c); [apply IH|]. reflexivity.
Qed.
Lemma readDigits_digits : forall w n, digits w n -> readDigits 0 w = (n, []).
Proof.
  intros w n H. induction H; [reflexivity|]. rewrite readDigits_app, IHdigits. cbn [readDigits]. now rewrite digitOf_nat.
Qed.
Lemma digits_readDigits : forall w w0 n0 n, digits w0 n0 -> readDigits n0 w = (n, []) -> digits (w0 ++ w) n.
Proof.
  induction w as [|c w IH]; intros w0 n0 n H E; cbn [readDigits] in E.
  - injection E as <-. now rewrite app_nil_r.
  - destruct (digitOf c) as [z|] eqn:C; [|discriminate]. apply digitOf_some in C. destruct C as (d & L & -> & ->).
    change (ascii_of_nat (48 + d) :: w) with ([ascii_of_nat (48 + d)] ++ w). rewrite app_assoc. eapply IH; [|exact E]. now constructor.
Qed.
Lemma isSpace_iff : forall c, isSpace c = true <-> space c.
Proof.
  intros c. unfold isSpace, space. rewrite existsb_exists. split.
  - intros (x & I & E). apply Ascii.eqb_eq in E. subst x. cbn in I. cbn. destruct I as [<-|[<-|[<-|[<-|[<-|[<-|[]]]]]]]; cbv; tauto.
  - intros I. exists c. split; [|apply Ascii.eqb_refl]. rewrite <- (ascii_nat_embedding c). cbn in I. cbn. destruct I as [<-|[<-|[<-|[<-|[<-|[<-|[]]]]]]]; cbv; tauto.
Qed.
Lemma skipSpace_split : forall w, exists b, Forall space b /\ w = b ++ skipSpace w /\ match skipSpace w with c :: _ => ~ space c | [] => True end.
Proof.
  induction w as [|c w (b & B1 & B2 & B3)]; [exists []; repeat split; constructor|]. cbn [skipSpace]. destruct (isSpace c) eqn:E.
  - exists (c :: b). split; [constructor; [now apply isSpace_iff|exact B1]|]. split; [cbn; now rewrite <- B2|exact B3].
  - exists []. split; [constructor|]. split; [reflexivity|]. intros C. apply isSpace_iff in C. congruence.
Qed.
Lemma skipSpace_app : forall b w, Forall space b -> match w with c :: _ => ~ space c | [] => True end -> skipSpace (b ++ w) = w.
Proof.
  intros b w H N. induction H as [|c b Hc _ IH]; cbn [app skipSpace].
  - destruct w as [|c w]; [reflexivity|]. cbn [skipSpace]. destruct (isSpace c) eqn:E; [|reflexivity]. apply isSpace_iff in E. contradiction.
  - apply isSpace_iff in Hc. now rewrite Hc.
Qed.
Lemma digits_first : forall w n, digits w n -> match w with c :: _ => exists d, d <= 9 /\ c = ascii_of_nat (48 + d) | [] => True end.
Proof.
  intros w n H. induction H; [exact I|]. destruct w as [|c w]; cbn; [now exists d|exact IHdigits].
Qed.
Lemma not_space_digit : forall d, d <= 9 -> ~ space (ascii_of_nat (48 + d)).
Proof. intros d H C. do 10 (destruct d; [cbv in C; intuition discriminate|]). lia. Qed.
Lemma not_sign_digit : forall d w, d <= 9 -> readSign (ascii_of_nat (48 + d) :: w) = (false, ascii_of_nat (48 + d) :: w).
Proof. intros d w H. do 10 (destruct d; [reflexivity|]). lia. Qed.
Lemma readSign_app : forall s e ds n, sign s e -> digits ds n -> readSign (s ++ ds) = ((e =? -1)%Z, ds).
Proof.
  intros s e ds n [] H; try reflexivity. cbn [app]. apply digits_first in H. destruct ds as [|c ds]; [reflexivity|]. destruct H as (d & L & ->). now apply not_sign_digit.
Qed.
Lemma sign_not_space : forall s e ds n, sign s e -> digits ds n -> match s ++ ds with c :: _ => ~ space c | [] => True end.
Proof.
  intros s e ds n [] H; cbn [app]; [|intros C; cbv in C; intuition discriminate|intros C; cbv in C; intuition discriminate].
  apply digits_first in H. destruct ds as [|c ds]; [exact I|]. destruct H as (d & L & ->). now apply not_space_digit.
Qed.
(** the number that is read *)
Definition text (w : word) (e n : Z) : Prop := exists b s ds, w = b ++ s ++ ds /\ Forall space b /\ sign s e /\ digits ds n.
Lemma text_read : forall w e n, text w e n -> exists ds, readSign (skipSpace w) = ((e =? -1)%Z, ds) /\ readDigits 0 ds = (n, []).
Proof.
  intros w e n (b & s & ds & -> & B & S & H). exists ds. rewrite skipSpace_app by (try assumption; eapply sign_not_space; eassumption).
  split; [eapply readSign_app; eassumption|now apply readDigits_digits].
Qed.
Lemma read_text : forall w, atEnd (snd (readDigits 0 (snd (readSign (skipSpace w))))) = true ->
  exists e, (e =? -1)%Z = fst (readSign (skipSpace w)) /\ (e = 1 \/ e = -1)%Z /\ text w e (fst (readDigits 0 (snd (readSign (skipSpace w))))).
Proof.
  intros w H. destruct (skipSpace_split w) as (b & B1 & B2 & _). destruct (readDigits 0 (snd (readSign (skipSpace w)))) as [n r] eqn:E. cbn in H |- *. destruct r; [|discriminate].
  pose proof (digits_readDigits _ [] 0 n digits_none E) as G. cbn in G. unfold readSign in *. destruct (skipSpace w) as [|c w'] eqn:W.
  - exists 1%Z. split; [reflexivity|]. split; [tauto|]. exists b, [], []. split; [now rewrite app_nil_r in *|]. repeat split; try assumption. constructor.
  - destruct (Ascii.eqb c "-") eqn:C1; [|destruct (Ascii.eqb c "+") eqn:C2].
    + apply Ascii.eqb_eq in C1. subst c. exists (-1)%Z. split; [reflexivity|]. split; [tauto|]. exists b, ["-"%char], w'. repeat split; try assumption. constructor.
    + apply Ascii.eqb_eq in C2. subst c. exists 1%Z. split; [reflexivity|]. split; [tauto|]. exists b, ["+"%char], w'. repeat split; try assumption. constructor.
    + exists 1%Z. split; [reflexivity|]. split; [tauto|]. exists b, [], (c :: w'). repeat split; try assumption. constructor.
Qed.

Section Proofs.
Context {D : Type}.
Variable extractDouble : word -> D * bool.
Notation declaration := (@declaration D).
Notation value := (@value D).
Notation opt := (@opt D).

(** the value of an argument *)
Definition convert (t : type) (a : option word) : option value :=
  match t, a with
  | Flag, None => Some (VFlag true)
  | Text, Some w => Some (VText w)
  | Real, Some w => if snd (extractDouble w) then Some (VReal (fst (extractDouble w))) else None
  | Character, Some w => if snd (extractCharacter w) then Some (VCharacter (fst (extractCharacter w))) else None
  | Signed low high, Some w => if snd (extractSigned low high w) then Some (VInteger (fst (extractSigned low high w))) else None
  | Unsigned bound, Some w => if snd (extractUnsigned bound w) then Some (VInteger (fst (extractUnsigned bound w))) else None
  | _, _ => None
  end.
Lemma convert_iff : forall t a v, convert t a = Some v <-> accepted extractDouble t a v.
Proof.
  intros t a v. split.
  - intros H. destruct t, a as [w|]; cbn in H; try discriminate; try (injection H as <-; constructor).
    + destruct (extractDouble w) as [d []] eqn:E; [|discriminate]. injection H as <-. now constructor.
    + unfold extractCharacter in H. destruct (skipSpace_split w) as (b & B1 & B2 & _). destruct (skipSpace w); [|discriminate]. injection H as <-. rewrite app_nil_r in B2. subst b. now constructor.
    + destruct (atEnd _) eqn:E; [|discriminate]. injection H as <-. apply read_text in E. destruct E as (e & E1 & E2 & b & s & ds & -> & B & S & G).
      rewrite <- E1. replace (if (e =? -1)%Z then (- _)%Z else _) with (e * fst (readDigits 0 (snd (readSign (skipSpace (b ++ s ++ ds))))))%Z; [now constructor|].
      destruct E2 as [->| ->]; cbn [Z.eqb Pos.eqb]; lia.
    + destruct (atEnd _) eqn:E; [|discriminate]. injection H as <-. apply read_text in E. destruct E as (e & E1 & E2 & b & s & ds & -> & B & S & G).
      rewrite <- E1. now constructor.
  - intros [ | | w d E|low high b s ds e n B S G|bound b s ds e n B S G|w B]; cbn; try reflexivity.
    + now rewrite E.
    + destruct (text_read (b ++ s ++ ds) e n) as (x & E1 & E2); [now exists b, s, ds|]. rewrite E1. cbn [fst snd]. rewrite E2. cbn [fst snd atEnd].
      destruct S; cbn [Z.eqb Pos.eqb]; repeat f_equal; lia.
    + destruct (text_read (b ++ s ++ ds) e n) as (x & E1 & E2); [now exists b, s, ds|]. rewrite E1. cbn [fst snd]. rewrite E2. reflexivity.
    + unfold extractCharacter. rewrite <- (app_nil_r w), skipSpace_app by trivial. reflexivity.
Qed.

Variable declared : list declaration.
(** ** the registry *)
Lemma registerAll_app : forall (l : list declaration) d, registerAll (l ++ [d]) = register_argument d (registerAll l).
Proof. intros. unfold registerAll. now rewrite fold_left_app. Qed.
Lemma registered_options : options (registerAll declared) = map (fun d => Opt (d_tag d) (d_long d) false (d_required d) (d_kind d) (d_default d)) declared.
Proof.
  induction declared as [|d l IH] using rev_ind; [reflexivity|]. rewrite registerAll_app, map_app. cbn. now rewrite IH.
Qed.
Lemma find_cons : forall {K V} (eq : K -> K -> bool) k a (v : V) m, find eq k ((a, v) :: m) = if eq a k then Some v else find eq k m.
Proof. intros. unfold find. cbn. now destruct (eq a k). Qed.
Lemma nth_error_snoc : forall {A} (l : list A) a k x, nth_error (l ++ [a]) k = Some x <-> nth_error l k = Some x \/ (k = length l /\ x = a).
Proof.
  intros A l a k x. destruct (Nat.lt_ge_cases k (length l)) as [L|L].
  - rewrite nth_error_app1 by exact L. split; [tauto|]. intros [H|[H _]]; [exact H|lia].
  - rewrite nth_error_app2 by exact L. split.
    + intros H. right. destruct (k - length l) eqn:E; [injection H as <-; split; [lia|reflexivity]|destruct n; discriminate].
    + intros [H|[-> ->]]; [exfalso; apply nth_error_None in L; congruence|]. now rewrite Nat.sub_diag.
Qed.

(** the maps give the first declaration with a key *)
Lemma first_iff : forall {K} (eq : K -> K -> bool) (key : declaration -> option K) (m : list declaration -> list (K * nat)),
  (forall a b, eq a b = true <-> a = b) -> m [] = [] ->
  (forall l d, m (l ++ [d]) = match key d with Some c => match find eq c (m l) with None => (c, length l) :: m l | Some _ => m l end | None => m l end) ->
  forall l c, match find eq c (m l) with
    | Some k => exists d, nth_error l k = Some d /\ key d = Some c /\ forall j e, j < k -> nth_error l j = Some e -> key e <> Some c
    | None => forall j e, nth_error l j = Some e -> key e <> Some c end.
Proof.
  intros K eq key m HE H0 HS. induction l as [|d l IH] using rev_ind; intros c.
  - rewrite H0. cbn. intros [|j] e H; discriminate.
  - rewrite HS. assert (U : match find eq c (m l) with
      | Some k => exists d', nth_error (l ++ [d]) k = Some d' /\ key d' = Some c /\ forall j e, j < k -> nth_error (l ++ [d]) j = Some e -> key e <> Some c
      | None => key d <> Some c -> forall j e, nth_error (l ++ [d]) j = Some e -> key e <> Some c end).
    { specialize (IH c). destruct (find eq c (m l)) as [k|].
      - destruct IH as (d' & H1 & H2 & H3). exists d'. split; [apply nth_error_snoc; now left|]. split; [exact H2|]. intros j e Hj He.
        assert (Lk : k < length l) by (apply nth_error_Some; congruence). rewrite nth_error_app1 in He by lia. eapply H3; eassumption.
      - intros Nd j e He. apply nth_error_snoc in He. destruct He as [He|[_ ->]]; [eapply IH; exact He|exact Nd]. }
    destruct (key d) as [c'|] eqn:Kd.
    + destruct (find eq c' (m l)) as [k'|] eqn:F'.
      * destruct (find eq c (m l)) as [k|] eqn:F; [exact U|]. apply U. intros [= ->]. congruence.
      * rewrite find_cons. destruct (eq c' c) eqn:E.
        -- apply HE in E. subst c'. exists d. split; [apply nth_error_snoc; right; auto|]. split; [exact Kd|]. intros j e Hj He. rewrite nth_error_app1 in He by exact Hj.
           specialize (IH c). rewrite F' in IH. eapply IH; exact He.
        -- destruct (find eq c (m l)) as [k|] eqn:F; [exact U|]. apply U. intros [= ->]. pose proof (proj2 (HE c c) eq_refl). congruence.
    + destruct (find eq c (m l)) as [k|]; [exact U|]. apply U. discriminate.
Qed.
Lemma registered_length : forall (l : list declaration), length (options (registerAll l)) = length l.
Proof. induction l as [|d l IH] using rev_ind; [reflexivity|]. rewrite registerAll_app. cbn. rewrite !app_length, IH. reflexivity. Qed.
Lemma longs_first : forall n, match find same_word n (longs (registerAll declared)) with
  | Some k => exists d, named declared n k d
  | None => forall k d, ~ named declared n k d end.
Proof.
  intros n. pose proof (first_iff same_word (fun d => Some (d_long d)) (fun l => longs (registerAll l)) same_word_eq eq_refl) as H.
  specialize (H ltac:(intros l d; cbn beta; rewrite registerAll_app; cbn [register_argument longs]; rewrite registered_length; reflexivity) declared n). cbn beta in H.
  destruct (find same_word n (longs (registerAll declared))) as [k|].
  - destruct H as (d & H1 & H2 & H3). exists d. split; [exact H1|]. split; [congruence|]. intros j e Hj He C. apply (H3 j e Hj He). congruence.
  - intros k d (H1 & H2 & _). apply (H k d H1). congruence.
Qed.
Lemma shorts_first : forall c, match find Ascii.eqb c (shorts (registerAll declared)) with
  | Some k => exists d, lettered declared c k d
  | None => forall k d, ~ lettered declared c k d end.
Proof.
  intros n. pose proof (first_iff Ascii.eqb d_tag (fun l => shorts (registerAll l)) Ascii.eqb_eq eq_refl) as H.
  specialize (H ltac:(intros l d; cbn beta; rewrite registerAll_app; cbn [register_argument shorts]; rewrite registered_length; reflexivity) declared n). cbn beta in H.
  destruct (find Ascii.eqb n (shorts (registerAll declared))) as [k|].
  - destruct H as (d & H1 & H2 & H3). exists d. split; [exact H1|]. split; [congruence|]. exact H3.
  - intros k d (H1 & H2 & _). apply (H k d H1). congruence.
Qed.
Lemma named_unique : forall n k d k' d', named declared n k d -> named declared n k' d' -> k = k' /\ d = d'.
Proof.
  intros n k d k' d' (H1 & H2 & H3) (G1 & G2 & G3). destruct (Nat.lt_trichotomy k k') as [L|[->|L]]; [exfalso; now apply (G3 k d L H1)| |exfalso; now apply (H3 k' d' L G1)].
  split; congruence.
Qed.
Lemma lettered_unique : forall n k d k' d', lettered declared n k d -> lettered declared n k' d' -> k = k' /\ d = d'.
Proof.
  intros n k d k' d' (H1 & H2 & H3) (G1 & G2 & G3). destruct (Nat.lt_trichotomy k k') as [L|[->|L]]; [exfalso; now apply (G3 k d L H1)| |exfalso; now apply (H3 k' d' L G1)].
  split; congruence.
Qed.
Lemma find_named : forall n k d, named declared n k d -> find same_word n (longs (registerAll declared)) = Some k.
Proof.
  intros n k d H. pose proof (longs_first n) as L. destruct find as [k'|]; [|exfalso; eapply L; exact H]. destruct L as (d' & L). f_equal. eapply named_unique; eassumption.
Qed.
Lemma find_lettered : forall n k d, lettered declared n k d -> find Ascii.eqb n (shorts (registerAll declared)) = Some k.
Proof.
  intros n k d H. pose proof (shorts_first n) as L. destruct find as [k'|]; [|exfalso; eapply L; exact H]. destruct L as (d' & L). f_equal. eapply lettered_unique; eassumption.
Qed.

(** ** one option *)
Definition set (kv : nat * value) (l : list opt) : list opt :=
  match nth_error l (fst kv) with Some o => replace l (fst kv) (Opt (tag o) (long_tag o) true (required o) (kind o) (snd kv)) | None => l end.
Definition fits (l : list opt) : Prop := Forall2 (fun d (o : opt) => tag o = d_tag d /\ long_tag o = d_long d /\ required o = d_required d /\ kind o = d_kind d) declared l.
Lemma replace_length : forall {A} (l : list A) k a, length (replace l k a) = length l.
Proof. induction l as [|b l IH]; intros [|k] a; cbn; auto. Qed.
Lemma replace_nth : forall {A} (l : list A) k a j, k < length l -> nth_error (replace l k a) j = if j =? k then Some a else nth_error l j.
Proof.
  induction l as [|b l IH]; intros k a j H; cbn in H; [lia|]. destruct k, j; cbn; try reflexivity. apply IH. lia.
Qed.
Lemma forall2_nth : forall {A B} (P : A -> B -> Prop) l m k a b, Forall2 P l m -> nth_error l k = Some a -> nth_error m k = Some b -> P a b.
Proof. intros A B P l m k a b H. revert k. induction H; intros [|k] Ha Hb; try discriminate; cbn in *; [congruence|eauto]. Qed.
Lemma forall2_length : forall {A B} (P : A -> B -> Prop) l m, Forall2 P l m -> length l = length m.
Proof. intros A B P l m H. induction H; cbn; congruence. Qed.
Lemma forall2_of_nth : forall {A B} (P : A -> B -> Prop) l m, length l = length m -> (forall k a b, nth_error l k = Some a -> nth_error m k = Some b -> P a b) -> Forall2 P l m.
Proof.
  induction l as [|a l IH]; intros [|b m] L H; try discriminate; constructor; [apply (H 0); reflexivity|]. apply IH; [now injection L|]. intros k. apply (H (S k)).
Qed.
Lemma set_fits : forall kv l, fits l -> fits (set kv l).
Proof.
  intros [k v] l H. unfold set. cbn [fst snd]. destruct (nth_error l k) as [o|] eqn:E; [|exact H]. assert (L : k < length l) by (apply nth_error_Some; congruence).
  apply forall2_of_nth; [rewrite replace_length; eapply forall2_length; exact H|]. intros j d o' Hd Ho. rewrite replace_nth in Ho by exact L. destruct (Nat.eqb_spec j k) as [->|N].
  - injection Ho as <-. exact (forall2_nth _ _ _ _ _ _ H Hd E).
  - exact (forall2_nth _ _ _ _ _ _ H Hd Ho).
Qed.
Lemma fits_at : forall l k d, fits l -> nth_error declared k = Some d -> exists o, nth_error l k = Some o /\ kind o = d_kind d.
Proof.
  intros l k d H E. destruct (nth_error l k) as [o|] eqn:F.
  - exists o. split; [reflexivity|]. apply (forall2_nth _ _ _ _ _ _ H E F).
  - exfalso. apply nth_error_None in F. assert (k < length declared) by (apply nth_error_Some; congruence). apply forall2_length in H. lia.
Qed.
Definition outcome_of {A} (x : option A) : outcome A := match x with Some a => Good a | None => Stopped end.
Lemma parse_flag : forall argv l i k d, fits l -> nth_error declared k = Some d -> flag d -> parse extractDouble argv k (l, i) = Good (set (k, VFlag true) l, i).
Proof.
  intros argv l i k d F E Fl. destruct (fits_at l k d F E) as (o & Eo & Ko). unfold parse, option_at, set. cbn [fst snd]. rewrite Eo. cbn [bind]. unfold flag in Fl. rewrite Ko, Fl. reflexivity.
Qed.
Lemma parse_value : forall argv l i k d a, fits l -> nth_error declared k = Some d -> ~ flag d -> nth_error argv (S i) = Some a ->
  parse extractDouble argv k (l, i) = bind (outcome_of (convert (d_kind d) (Some a))) (fun v => Good (set (k, v) l, S i)).
Proof.
  intros argv l i k d a F E Fl Ea. destruct (fits_at l k d F E) as (o & Eo & Ko). unfold parse, option_at, set. cbn [fst snd]. rewrite Eo. cbn [bind]. unfold flag in Fl.
  rewrite <- Ko in Fl |- *. unfold parse_argument, word_at. rewrite Ea. destruct (kind o); cbn [bind convert]; try contradiction; try reflexivity.
  all: unfold must; match goal with |- context [if snd ?x then _ else _] => destruct (snd x) end; reflexivity.
Qed.
Lemma has_flag : forall (o : opt) (d : declaration), kind o = d_kind d -> (flag d -> hasArgument o = false) /\ (~ flag d -> hasArgument o = true).
Proof. intros o d E. unfold hasArgument, flag. rewrite E. split; [now intros ->|]. intros N. destruct (d_kind d); try reflexivity. contradiction. Qed.
Lemma flag_dec : forall d : declaration, {flag d} + {~ flag d}.
Proof. intros d. unfold flag. destruct (d_kind d); [left; reflexivity|right; discriminate..]. Qed.
End Proofs.
