From Coq Require Import List Arith Bool Ascii ZArith Lia.
From Verif Require Import Materials_model Materials_spec.
Import ListNotations.

Lemma eqb_refl' c : Ascii.eqb c c = true. Proof. apply Ascii.eqb_refl. Qed.
Lemma eqb_neq' a c : a <> c -> Ascii.eqb a c = false. Proof. intros. now apply Ascii.eqb_neq. Qed.

Lemma first_none c s : ~ In c s -> find_first_of c s = None.
Proof. induction s as [|x s IH]; cbn; intros H; [reflexivity|]. rewrite eqb_neq', IH; auto. Qed.
Lemma first_app c s r : ~ In c s -> find_first_of c (s ++ c :: r) = Some (length s).
Proof. induction s as [|x s IH]; cbn; intros H; [now rewrite eqb_refl'|]. rewrite eqb_neq', IH; auto. Qed.
Lemma last_none c s : ~ In c s -> find_last_of c s = None.
Proof. induction s as [|x s IH]; cbn; intros H; [reflexivity|]. rewrite IH, eqb_neq'; auto. Qed.
Lemma last_app c s r : ~ In c r -> find_last_of c (s ++ c :: r) = Some (length s).
Proof. intros H. induction s as [|x s IH]; cbn; [now rewrite last_none, eqb_refl'|]. now rewrite IH. Qed.
Lemma in_last (c : ascii) (s : list ascii) : In c s -> exists r e, s = r ++ c :: e /\ ~ In c e.
Proof.
  induction s as [|x s IH]; intros H; [contradiction|]. destruct (in_dec ascii_dec c s) as [I|N].
  - destruct (IH I) as [r [e [-> Ne]]]. exists (x :: r), e. now split.
  - destruct H as [->|H]; [|contradiction]. exists [], s. now split.
Qed.
Lemma cut {A} (s r : list A) c : firstn (length s) (s ++ c :: r) = s /\ skipn (length s + 1) (s ++ c :: r) = r.
Proof. split; induction s as [|x s IH]; cbn; auto. now rewrite IH. Qed.

Lemma getline_end c s : ~ In c s -> getline c s = (s, [], true).
Proof. induction s as [|x s IH]; cbn; intros H; [reflexivity|]. rewrite eqb_neq', IH; auto. Qed.
Lemma getline_app c s r : ~ In c s -> getline c (s ++ c :: r) = (s, r, false).
Proof. induction s as [|x s IH]; cbn; intros H; [now rewrite eqb_refl'|]. rewrite eqb_neq', IH; auto. Qed.

Lemma join_cons c s l : l <> [] -> join c (s :: l) = s ++ c :: join c l.
Proof. destruct l; [congruence|reflexivity]. Qed.
Lemma pieces c s : exists l, l <> [] /\ Forall (fun p => ~ In c p) l /\ join c l = s.
Proof.
  induction s as [|x s [l [N [F E]]]]; [exists [[]]; repeat split; [discriminate|repeat constructor; auto]|].
  destruct (ascii_dec x c) as [->|D].
  - exists ([] :: l). repeat split; [discriminate|constructor; auto|]. rewrite join_cons by assumption. cbn. now rewrite E.
  - destruct l as [|p l]; [congruence|]. exists ((x :: p) :: l). inversion F; subst. repeat split; [discriminate| |].
    + constructor; [|assumption]. intros [H|H]; contradiction.
    + destruct l; [reflexivity|]. rewrite !join_cons by discriminate. reflexivity.
Qed.

Lemma split_join c l : forall fuel, l <> [] -> Forall (fun p => ~ In c p) l -> length (join c l) <= fuel -> splitLoop fuel c (join c l) = l.
Proof.
  induction l as [|p l IH]; intros fuel N F L; [congruence|]. inversion F; subst. destruct l as [|q l].
  - cbn [join]. destruct fuel; cbn [splitLoop]; [reflexivity|]. now rewrite first_none.
  - rewrite join_cons in * by discriminate. rewrite app_length in L. cbn [length] in L. destruct fuel as [|fuel]; [lia|]. cbn [splitLoop].
    rewrite first_app by assumption. destruct (cut p (join c (q :: l)) c) as [-> ->]. rewrite IH; [reflexivity|discriminate|assumption|lia].
Qed.
Lemma join_empty c l : l <> [] -> join c l = [] -> l = [[]].
Proof. destruct l as [|p [|q l]]; [congruence|cbn; now intros _ ->|]. rewrite join_cons by discriminate. intros _ H. destruct p; discriminate. Qed.
Lemma string_split c l : l <> [] -> l <> [[]] -> Forall (fun p => ~ In c p) l -> stringSplit (join c l) c = l.
Proof.
  intros N N' F. unfold stringSplit. destruct (join c l) as [|x s] eqn:E; [now apply join_empty in E|]. rewrite <- E. now apply split_join.
Qed.

Section Reading.
Context {RE E : Type} (compile : list ascii -> option RE) (isMatch : RE -> list ascii -> bool) (stod : list ascii -> option (E * nat)).

Lemma parse_entry r x e v : compile r = Some x -> number stod e v -> e <> [] -> ~ In ","%char e ->
  parseLine compile stod (r ++ ","%char :: e) = Some (x, v).
Proof.
  intros C N Ne I. unfold parseLine, comma. rewrite last_app by assumption. destruct (cut r e ","%char) as [-> ->]. rewrite C. destruct e; [congruence|].
  unfold number in N. now rewrite N, Nat.eqb_refl.
Qed.
Lemma parse_inv line x v : parseLine compile stod line = Some (x, v) ->
  exists r e, line = r ++ ","%char :: e /\ compile r = Some x /\ number stod e v /\ e <> [] /\ ~ In ","%char e.
Proof.
  intros H. destruct (in_dec ascii_dec ","%char line) as [I|N]; [|unfold parseLine, comma in H; rewrite last_none in H by assumption; discriminate].
  destruct (in_last _ _ I) as [r [e [-> Ne]]]. exists r, e. unfold parseLine, comma in H. rewrite last_app in H by assumption.
  destruct (cut r e ","%char) as [E1 E2]. rewrite E1, E2 in H. destruct (compile r) as [y|] eqn:C; [|discriminate]. destruct e as [|c e]; [discriminate|].
  destruct (stod (c :: e)) as [[w i]|] eqn:S; [|discriminate]. destruct (Nat.eqb_spec i (length (c :: e))) as [->|]; [|discriminate]. injection H as -> ->.
  repeat split; auto; discriminate.
Qed.

Fixpoint entries (l : list (list ascii)) : option (list (RE * E)) :=
  match l with
  | [] => Some []
  | [] :: l => entries l
  | line :: l => match parseLine compile stod line with None => None | Some x => match entries l with None => None | Some d => Some (x :: d) end end
  end.
Lemma entries_describe l : forall d, entries l = Some d <-> describe compile stod l d.
Proof.
  induction l as [|line l IH]; intros d.
  - cbn. split; [intros H; injection H as <-; constructor|intros H; now inversion H].
  - destruct line as [|c line].
    + cbn [entries]. rewrite IH. split; [now constructor|]. intros H. inversion H as [|? ? H'|r x e v ? ? ? ? ? ? ? E0]; subst; [assumption|]. destruct r; discriminate.
    + cbn [entries]. destruct (parseLine compile stod (c :: line)) as [[x v]|] eqn:P.
      * destruct (parse_inv _ _ _ P) as [r [e [Er [C [N [Ne I]]]]]]. rewrite Er. split.
        -- intros H. destruct (entries l) as [d'|] eqn:D; [|discriminate]. injection H as <-. constructor; auto. now apply IH.
        -- intros H. inversion H as [|? ? H'|r' x' e' v' ? d' C' N' Ne' I' D' E0 E1]; subst.
           ++ destruct r; discriminate.
           ++ apply IH in D'. rewrite D'. pose proof (parse_entry r' x' e' v' C' N' Ne' I') as P'. rewrite E0 in P'. rewrite <- Er in P'. rewrite P in P'. injection P' as -> ->. reflexivity.
      * split; [discriminate|]. intros H. inversion H as [| |r' x' e' v' ? d' C' N' Ne' I' D' E0 E1]; subst.
        pose proof (parse_entry r' x' e' v' C' N' Ne' I') as P'. rewrite E0 in P'. congruence.
Qed.

Lemma read_lines c l : forall fuel R V, l <> [] -> Forall (fun p => ~ In c p) l -> length (join c l) < fuel ->
  readLoop compile stod fuel c (join c l) R V = match entries l with None => None | Some d => Some (R ++ map fst d, V ++ map snd d) end.
Proof.
  induction l as [|p l IH]; intros fuel R V N F L; [congruence|]. inversion F; subst. destruct fuel as [|fuel]; [lia|]. destruct l as [|q l].
  - cbn [join readLoop]. rewrite getline_end by assumption. destruct p as [|a p]; cbn [entries].
    + now rewrite !app_nil_r.
    + destruct (parseLine compile stod (a :: p)) as [[x v]|]; reflexivity.
  - rewrite join_cons in * by discriminate. rewrite app_length in L. cbn [length] in L. cbn [readLoop]. rewrite getline_app by assumption.
    destruct p as [|a p].
    + cbn [length] in L. change (entries ([] :: q :: l)) with (entries (q :: l)). apply IH; [discriminate|assumption|lia].
    + change (entries ((a :: p) :: q :: l)) with (match parseLine compile stod (a :: p) with None => None | Some x => match entries (q :: l) with None => None | Some d => Some (x :: d) end end).
      destruct (parseLine compile stod (a :: p)) as [[x v]|]; [|reflexivity]. rewrite IH; [|discriminate|assumption|cbn [length] in L; lia].
      destruct (entries (q :: l)) as [d|]; [|reflexivity]. cbn [map fst snd]. now rewrite <- !app_assoc.
Qed.

Lemma first_match_info name (d : list (RE * E)) v : first_match isMatch name d v <-> createElementInfo isMatch (map fst d, map snd d) name = Some v.
Proof.
  unfold createElementInfo. cbn [fst snd]. induction d as [|[x w] d IH]; cbn [map fst snd matchName].
  - split; [intros H; inversion H|discriminate].
  - destruct (isMatch x name) eqn:M.
    + cbn [nth_error]. split; [intros H; inversion H; subst; congruence|intros H; injection H as <-; now constructor].
    + destruct (matchName isMatch name (map fst d)) as [i|]; cbn [option_map nth_error]; rewrite <- IH;
        (split; [intros H; inversion H; subst; [congruence|assumption]|now constructor]).
Qed.
End Reading.

Section Layers.
Context {E : Type} (stod : list ascii -> option (E * nat)) (valid : E -> bool).
Lemma direction_towards c d : direction c = Some d <-> towards c d.
Proof.
  unfold direction. split.
  - destruct (Ascii.eqb_spec c "0") as [->|]; [intros H; injection H as <-; constructor|]. destruct (Ascii.eqb_spec c "+") as [->|]; [intros H; injection H as <-; constructor|].
    destruct (Ascii.eqb_spec c "-") as [->|]; [intros H; injection H as <-; constructor|discriminate].
  - now intros [].
Qed.
Lemma read_layer cs : forall ps ds l, length cs = length ps -> (readDirections stod valid cs ps = Some (ds, l) <-> layer stod valid cs ps ds l).
Proof.
  induction cs as [|c cs IH]; intros [|p ps] ds l L; try discriminate.
  - cbn. split; [intros H; injection H as <- <-; constructor|intros H; now inversion H].
  - injection L as L. cbn [readDirections]. split.
    + destruct (direction c) as [d|] eqn:D; [|discriminate]. destruct (stod p) as [[a n]|] eqn:S; [|discriminate].
      destruct (Nat.eqb_spec n (length p)) as [->|]; [|discriminate]. cbn [andb]. destruct ((d =? 0)%Z || valid a) eqn:Q; [|discriminate].
      destruct (readDirections stod valid cs ps) as [[ds' l']|] eqn:R; [|discriminate]. intros H. injection H as <- <-.
      constructor; [now apply direction_towards|exact S| |now apply IH]. intros N. apply orb_true_iff in Q as [Q|Q]; [|exact Q]. apply Z.eqb_eq in Q. contradiction.
    + intros H. inversion H as [|c' d p' a cs' ps' ds' l' T N V Ly]; subst. apply direction_towards in T. unfold number in N. rewrite T, N, Nat.eqb_refl. cbn [andb].
      apply IH in Ly; [|assumption]. rewrite Ly. destruct (Z.eqb_spec d 0) as [->|Nz]; [reflexivity|]. now rewrite V.
Qed.
End Layers.
