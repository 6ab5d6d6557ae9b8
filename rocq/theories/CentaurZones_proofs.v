From Coq Require Import List Arith Bool Lia.
From Verif Require Import Centaur_model Centaur_spec.
Import ListNotations.

Section Zones.
Context {A : Type}.

Lemma assign_ok n (name : A) : forall pos names, pos + n <= length names ->
  exists names', assign n name pos names = Some names' /\ length names' = length names /\
    forall j, nth_error names' j = if (pos <=? j) && (j <? pos + n) then Some name else nth_error names j.
Proof.
  induction n as [|n IH]; intros pos names L.
  - exists names. split; [reflexivity|]. split; [reflexivity|]. intros j. rewrite Nat.add_0_r.
    destruct (Nat.leb_spec pos j), (Nat.ltb_spec j pos); cbn; try reflexivity; lia.
  - cbn [assign]. destruct (Nat.ltb_spec pos (length names)); [|lia].
    set (m := firstn pos names ++ name :: skipn (S pos) names).
    assert (Lm : length m = length names) by (unfold m; rewrite app_length; cbn [length]; rewrite firstn_length, skipn_length; lia).
    assert (Nm : forall j, nth_error m j = if j =? pos then Some name else nth_error names j).
    { intros j. unfold m. assert (Lf : length (firstn pos names) = pos) by (rewrite firstn_length; lia).
      destruct (Nat.eqb_spec j pos) as [->|Ne].
      - rewrite nth_error_app2 by lia. now rewrite Lf, Nat.sub_diag.
      - destruct (Nat.lt_ge_cases j pos) as [Hj|Hj].
        + rewrite nth_error_app1 by lia. rewrite <- (firstn_skipn pos names) at 2. now rewrite nth_error_app1 by lia.
        + rewrite nth_error_app2 by lia. rewrite Lf. replace (j - pos) with (S (j - S pos)) by lia. cbn [nth_error].
          rewrite <- (firstn_skipn (S pos) names) at 2. assert (Lf2 : length (firstn (S pos) names) = S pos) by (rewrite firstn_length; lia).
          rewrite nth_error_app2 by lia. now rewrite Lf2. }
    destruct (IH (S pos) m ltac:(lia)) as [names' [E1 [E2 E3]]]. exists names'. split; [exact E1|]. split; [lia|].
    intros j. rewrite E3, Nm.
    destruct (Nat.leb_spec (S pos) j), (Nat.ltb_spec j (S pos + n)), (Nat.leb_spec pos j), (Nat.ltb_spec j (pos + S n)), (Nat.eqb_spec j pos); cbn; try reflexivity; lia.
Qed.

(** the zones of four types that start at [s], [a + s] ... *)
Definition written (ends positions : list nat) (j : nat) : Prop :=
  exists u e p, nth_error ends u = Some e /\ nth_error positions u = Some p /\ p <= j < e.
Lemma zoneTypes_ok (name : A) : forall ends positions names, length ends = length positions -> (forall e, In e ends -> e <= length names) ->
  exists ps names', zoneTypes name ends positions names = Some (ps, names') /\ length names' = length names /\ length ps = length positions /\
    (forall u e p, nth_error ends u = Some e -> nth_error positions u = Some p -> nth_error ps u = Some (Nat.max p e)) /\
    (forall j, written ends positions j -> nth_error names' j = Some name) /\
    (forall j, ~ written ends positions j -> nth_error names' j = nth_error names j).
Proof.
  induction ends as [|e ends IH]; intros [|p positions] names L B; try discriminate.
  - exists [], names. cbn. repeat split; try reflexivity.
    + intros u ? ? Hu. now rewrite nth_error_nil in Hu || (destruct u; discriminate Hu).
    + intros j [u [? [? [Hu _]]]]. destruct u; discriminate Hu.
  - cbn [length] in L. injection L as L. cbn [zoneTypes].
    assert (M : exists names1, assign (e - p) name p names = Some names1 /\ length names1 = length names /\
      forall j, nth_error names1 j = if (p <=? j) && (j <? e) then Some name else nth_error names j).
    { destruct (Nat.le_gt_cases e p).
      - replace (e - p) with 0 by lia. exists names. split; [reflexivity|]. split; [reflexivity|]. intros j. destruct (Nat.leb_spec p j), (Nat.ltb_spec j e); cbn; try reflexivity; lia.
      - destruct (assign_ok (e - p) name p names) as [n1 [E1 [E2 E3]]]; [specialize (B e (or_introl eq_refl)); lia|].
        exists n1. repeat split; try assumption. intros j. rewrite E3. now replace (p + (e - p)) with e by lia. }
    destruct M as [n1 [E1 [E2 E3]]]. rewrite E1.
    destruct (IH positions n1 L) as [ps [n2 [F1 [F2 [F3 [F4 [F5 F6]]]]]]]; [intros x Hx; rewrite E2; apply B; now right|].
    rewrite F1. exists (Nat.max p e :: ps), n2. repeat split; try (cbn [length]; congruence).
    + intros [|u] e0 p0; cbn [nth_error]; [congruence|apply F4].
    + intros j [u [e0 [p0 [Hu [Hp Hj]]]]].
      assert (D : written ends positions j \/ ~ written ends positions j).
      { assert (K : forall (en po : list nat), length en = length po -> written en po j \/ ~ written en po j).
        { clear. induction en as [|x en I]; intros [|y po] H; try discriminate; [right; intros [u [? [? [Hu _]]]]; destruct u; discriminate Hu|].
          injection H as H. destruct (I po H) as [[u [e0 [p0 W]]]|W]; [left; exists (S u), e0, p0; exact W|].
          destruct (le_lt_dec y j) as [H1|H1]; [destruct (le_lt_dec x j) as [H2|H2]|].
          - right. intros [[|u] [e0 [p0 [X [Y Z]]]]]; [cbn in X, Y; injection X as ->; injection Y as ->; lia|]. apply W. exists u, e0, p0. auto.
          - left. exists 0, x, y. cbn. auto.
          - right. intros [[|u] [e0 [p0 [X [Y Z]]]]]; [cbn in X, Y; injection X as ->; injection Y as ->; lia|]. apply W. exists u, e0, p0. auto. }
        now apply K. }
      destruct D as [D|D]; [now apply F5|]. rewrite F6 by exact D. destruct u as [|u].
      * cbn in Hu, Hp. injection Hu as ->. injection Hp as ->. rewrite E3. destruct (Nat.leb_spec p0 j), (Nat.ltb_spec j e0); cbn; try reflexivity; lia.
      * exfalso. apply D. exists u, e0, p0. auto.
    + intros j W. rewrite F6. 2:{ intros [u [e0 [p0 X]]]. apply W. exists (S u), e0, p0. exact X. }
      rewrite E3. destruct (Nat.leb_spec p j), (Nat.ltb_spec j e); cbn; try reflexivity. exfalso. apply W. exists 0, e, p. cbn. auto.
Qed.

(** element [j] of the vector lies in the part of type [u], which starts at [before counts u] *)
Context (counts : list nat) (Four : length counts = 4).
Definition total := fold_right Nat.add 0 counts.
Lemma before_next u n : nth_error counts u = Some n -> before counts (S u) = before counts u + n.
Proof using Four.
  destruct counts as [|a [|b [|cc [|d [|]]]]]; try discriminate Four. destruct u as [|[|[|[|u]]]]; cbn; intros H; [..|destruct u; discriminate H]; injection H as <-; lia.
Qed.
Lemma before_apart u v n m j : nth_error counts u = Some n -> nth_error counts v = Some m -> u <> v ->
  before counts u <= j < before counts u + n -> ~ (before counts v <= j < before counts v + m).
Proof using Four.
  destruct counts as [|a [|b [|cc [|d [|]]]]]; try discriminate Four.
  destruct u as [|[|[|[|u]]]], v as [|[|[|[|v]]]]; cbn; intros H K; try (destruct u; discriminate H); try (destruct v; discriminate K);
    injection H as <-; injection K as <-; lia.
Qed.
Lemma starts_before u : u < 4 -> nth_error (startsOf counts) u = Some (before counts u).
Proof using Four.
  destruct counts as [|a [|b [|cc [|d [|]]]]]; try discriminate Four. destruct u as [|[|[|[|u]]]]; cbn; intros H; [..|lia]; f_equal; lia.
Qed.
Lemma starts_length : length (startsOf counts) = 4.
Proof using Four. destruct counts as [|a [|b [|cc [|d [|]]]]]; try discriminate Four. reflexivity. Qed.
Lemma part_total u n : nth_error counts u = Some n -> before counts u + n <= total.
Proof using Four.
  unfold total. destruct counts as [|a [|b [|cc [|d [|]]]]]; try discriminate Four. destruct u as [|[|[|[|u]]]]; cbn; intros H; [..|destruct u; discriminate H]; injection H as <-; lia.
Qed.

Lemma zonesFrom_ok zones : forall positions (names : list A), length names = total -> length positions = 4 ->
  (forall name row, In (name, row) zones -> length row = 4 /\ forall u e n, nth_error row u = Some e -> nth_error counts u = Some n -> e <= n) ->
  (forall u p, nth_error positions u = Some p -> before counts u <= p) ->
  exists names', zonesFrom zones positions names = Some names' /\ length names' = total /\
    forall u n p j, nth_error counts u = Some n -> nth_error positions u = Some p -> before counts u <= j < before counts u + n ->
      nth_error names' j = if j <? p then nth_error names j else
        match find (fun z : A * list nat => j <? nth u (snd z) 0) zones with Some z => Some (fst z) | None => nth_error names j end.
Proof using Four.
  induction zones as [|[name row] zones IH]; intros positions names Ln Lp Hz Hp.
  - exists names. split; [reflexivity|]. split; [exact Ln|]. intros u n p j _ _ _. cbn [find]. now destruct (j <? p).
  - destruct (Hz name row (or_introl eq_refl)) as [Lr Hr]. cbn [zonesFrom].
    destruct (zoneTypes_ok name row positions names) as [ps [n1 [F1 [F2 [F3 [F4 [F5 F6]]]]]]]; [congruence| |].
    { intros e He. apply In_nth_error in He as [u He]. assert (Hu : u < length counts) by (rewrite Four, <- Lr; apply nth_error_Some; congruence).
      destruct (nth_error counts u) as [n|] eqn:En; [|apply nth_error_None in En; lia]. specialize (Hr u e n He En). pose proof (part_total u n En). lia. }
    rewrite F1. destruct (IH ps n1) as [n2 [G1 [G2 G3]]]; [congruence|congruence|intros nm rw Hin; apply (Hz nm rw); now right| |].
    { intros u p' Hu. assert (L4 : u < 4) by (rewrite <- Lp, <- F3; apply nth_error_Some; congruence).
      destruct (nth_error row u) as [e|] eqn:Er; [|apply nth_error_None in Er; lia].
      destruct (nth_error positions u) as [p|] eqn:Ep; [|apply nth_error_None in Ep; lia].
      rewrite (F4 u e p Er Ep) in Hu. injection Hu as <-. specialize (Hp u p Ep). lia. }
    rewrite G1. exists n2. split; [reflexivity|]. split; [exact G2|]. intros u n p j Hn Hu Hj.
    assert (L4 : u < 4) by (rewrite <- Lp; apply nth_error_Some; congruence).
    destruct (nth_error row u) as [e|] eqn:Er; [|apply nth_error_None in Er; lia].
    rewrite (G3 u n (Nat.max p e) j Hn (F4 u e p Er Hu) Hj). cbn [find snd]. rewrite (nth_error_nth row u 0 Er).
    assert (W : written row positions j <-> p <= j < e).
    { split; [|intros X; exists u, e, p; auto]. intros [v [e' [p' [X [Y Z]]]]]. destruct (Nat.eq_dec u v) as [<-|Ne]; [congruence|]. exfalso.
      assert (Hv : v < length counts) by (rewrite Four, <- Lp; apply nth_error_Some; congruence).
      destruct (nth_error counts v) as [m|] eqn:Em; [|apply nth_error_None in Em; lia].
      apply (before_apart u v n m j Hn Em Ne Hj). specialize (Hp v p' Y). specialize (Hr v e' m X Em). lia. }
    destruct (Nat.ltb_spec j p) as [J1|J1].
    + destruct (Nat.ltb_spec j (Nat.max p e)); [|lia]. apply F6. rewrite W. lia.
    + destruct (Nat.ltb_spec j e) as [J2|J2].
      * destruct (Nat.ltb_spec j (Nat.max p e)); [|lia]. apply F5. rewrite W. lia.
      * destruct (Nat.ltb_spec j (Nat.max p e)); [lia|]. now rewrite F6 by (rewrite W; lia).
Qed.

(** the ends of the zones *)
Lemma endsFrom_ok : forall starts : list (list nat), starts <> [] -> exists ends, endsFrom counts starts = Some ends /\ length ends = length starts /\
  forall z, z < length starts -> nth_error ends z = match nth_error starts (S z) with Some next => Some (map pred next) | None => Some counts end.
Proof.
  induction starts as [|s [|s' r] IH]; intros N; [easy| |].
  - exists [counts]. cbn. repeat split. intros [|z] Hz; [reflexivity|lia].
  - destruct IH as [ends [E1 [E2 E3]]]; [easy|]. exists (map pred s' :: ends). cbn [endsFrom] in E1 |- *. rewrite E1. split; [reflexivity|]. split; [cbn [length] in *; congruence|].
    intros [|z] Hz; [reflexivity|]. cbn [nth_error]. rewrite E3 by (cbn [length] in *; lia). reflexivity.
Qed.

Lemma combine_nth {B C} (l : list B) (m : list C) k x y : nth_error l k = Some x -> nth_error m k = Some y -> nth_error (combine l m) k = Some (x, y).
Proof. revert m k. induction l as [|a l IH]; intros [|b m] [|k]; cbn; try discriminate; [congruence|apply IH]. Qed.
Lemma combine_nth_inv {B C} (l : list B) (m : list C) k p : nth_error (combine l m) k = Some p -> nth_error l k = Some (fst p) /\ nth_error m k = Some (snd p).
Proof. revert m k. induction l as [|a l IH]; intros [|b m] [|k]; cbn; try discriminate; [intros H; injection H as <-; auto|apply IH]. Qed.
Lemma find_at {B} (f : B -> bool) l k x : nth_error l k = Some x -> f x = true -> (forall i y, i < k -> nth_error l i = Some y -> f y = false) -> find f l = Some x.
Proof.
  revert k. induction l as [|a l IH]; intros [|k] H Fx Lo; cbn in *; try discriminate.
  - injection H as ->. now rewrite Fx.
  - rewrite (Lo 0 a) by (cbn; auto; lia). apply (IH k H Fx). intros i y Hi Hy. apply (Lo (S i) y); [lia|exact Hy].
Qed.

Lemma nameZones_ok (unset : A) zones : sensible counts zones ->
  exists names, nameZones unset counts (Some zones) = Some names /\ length names = total /\
    forall u n i, nth_error counts u = Some n -> i < n ->
      (before counts u + i < n -> forall z name row, in_zone zones u (before counts u + i) z -> nth_error zones z = Some (name, row) ->
         nth_error names (before counts u + i) = Some name) /\
      (n <= before counts u + i -> nth_error names (before counts u + i) = Some unset).
Proof using Four.
  intros [_ [Ne [Rows [One [Mono Top]]]]].
  assert (Map : forall z name row, nth_error zones z = Some (name, row) -> nth_error (map snd zones) z = Some row /\ nth_error (map fst zones) z = Some name).
  { intros z name row Hz. split; [exact (map_nth_error snd z zones Hz)|exact (map_nth_error fst z zones Hz)]. }
  assert (RowAt : forall z row, nth_error (map snd zones) z = Some row -> exists name, nth_error zones z = Some (name, row)).
  { intros z row Hz. rewrite nth_error_map in Hz. destruct (nth_error zones z) as [[name r]|]; [|discriminate]. cbn in Hz. injection Hz as ->. now exists name. }
  destruct (endsFrom_ok (map snd zones)) as [ends [E1 [E2 E3]]]; [now destruct zones|]. rewrite map_length in E2, E3.
  assert (EO : endOffsets counts (map snd zones) = Some ends).
  { unfold endOffsets. rewrite <- E1. destruct zones as [|[name row] r] eqn:Ez; [easy|]. cbn [map snd].
    replace (forallb (Nat.eqb 1) row) with true; [reflexivity|]. symmetry. apply forallb_forall. intros x Hx. apply In_nth_error in Hx as [u Hu].
    apply Nat.eqb_eq. symmetry. apply (One u). exists name, row. split; [reflexivity|exact Hu]. }
  (* the end of a zone for a type *)
  assert (EndRow : forall z row, nth_error ends z = Some row -> length row = 4 /\ forall u e n, nth_error row u = Some e -> nth_error counts u = Some n -> e <= n).
  { intros z row Hz. assert (Lz : z < length zones) by (rewrite <- E2; apply nth_error_Some; congruence). rewrite E3 in Hz by exact Lz.
    destruct (nth_error (map snd zones) (S z)) as [next|] eqn:En.
    - injection Hz as <-. destruct (RowAt _ _ En) as [name Hn]. split; [rewrite map_length; apply (Rows name); now apply nth_error_In with (S z)|].
      intros u e n Hu Hc. rewrite nth_error_map in Hu. destruct (nth_error next u) as [f|] eqn:Ef; [|discriminate]. cbn in Hu. injection Hu as <-.
      specialize (Top (S z) u f n (ex_intro _ name (ex_intro _ next (conj Hn Ef))) Hc). lia.
    - injection Hz as <-. split; [exact Four|]. intros u e n Hu Hc. rewrite Hu in Hc. injection Hc as ->. lia. }
  destruct (zonesFrom_ok (combine (map fst zones) ends) (startsOf counts) (repeat unset total)) as [names [N1 [N2 N3]]].
  - apply repeat_length.
  - apply starts_length.
  - intros name row Hin. apply In_nth_error in Hin as [z Hz]. apply combine_nth_inv in Hz as [_ Hz]. exact (EndRow z row Hz).
  - intros u p Hu. rewrite starts_before in Hu; [injection Hu as <-; lia|]. rewrite <- starts_length. apply nth_error_Some. congruence.
  - unfold nameZones. rewrite EO. unfold applyZones. fold total. exists names. split; [exact N1|]. split; [exact N2|].
    intros u n i Hn Hi.
    assert (U4 : u < 4) by (rewrite <- Four; apply nth_error_Some; congruence).
    rewrite (N3 u n (before counts u) (before counts u + i) Hn (starts_before u U4)) by lia.
    destruct (Nat.ltb_spec (before counts u + i) (before counts u)); [lia|].
    assert (Rep : nth_error (repeat unset total) (before counts u + i) = Some unset).
    { apply nth_error_repeat. pose proof (part_total u n Hn). lia. }
    split.
    + intros Hj z name row [[f [[nm [rw [Z1 Z2]]] Hf]] Nx] Hz. set (j := before counts u + i) in *.
      assert (Lz : z < length zones) by (apply nth_error_Some; congruence).
      assert (EZ : exists e, nth_error ends z = Some e /\ j < nth u e 0).
      { rewrite E3 by exact Lz. destruct (nth_error (map snd zones) (S z)) as [next|] eqn:En.
        - exists (map pred next). split; [reflexivity|]. destruct (RowAt _ _ En) as [nm2 Hn2].
          assert (Lx : length next = 4) by (apply (Rows nm2); now apply nth_error_In with (S z)).
          destruct (nth_error next u) as [g|] eqn:Eg; [|apply nth_error_None in Eg; lia].
          specialize (Nx g (ex_intro _ nm2 (ex_intro _ next (conj Hn2 Eg)))).
          rewrite (nth_error_nth (map pred next) u 0 (map_nth_error pred u next Eg)). lia.
        - exists counts. split; [reflexivity|]. now rewrite (nth_error_nth counts u 0 Hn). }
      destruct EZ as [e [Ee Je]].
      assert (Fd : find (fun z0 : A * list nat => j <? nth u (snd z0) 0) (combine (map fst zones) ends) = Some (name, e)).
      { apply (find_at _ _ z); [apply combine_nth; [apply (Map z name row Hz)|exact Ee]|apply Nat.ltb_lt; exact Je|].
        intros y [ny ey] Hy Hc. apply combine_nth_inv in Hc as [_ Hc]. cbn [snd] in Hc |- *. apply Nat.ltb_ge.
        rewrite E3 in Hc by lia. destruct (nth_error zones (S y)) as [[nm2 next]|] eqn:Ey; [|apply nth_error_None in Ey; lia].
        rewrite (proj1 (Map _ _ _ Ey)) in Hc. injection Hc as <-.
        assert (Lx : length next = 4) by (apply (Rows nm2); now apply nth_error_In with (S y)).
        destruct (nth_error next u) as [g|] eqn:Eg; [|apply nth_error_None in Eg; lia].
        rewrite (nth_error_nth (map pred next) u 0 (map_nth_error pred u next Eg)).
        assert (g <= f); [|lia]. apply (Mono (S y) z u g f); [lia|exists nm2, next; auto|exists nm, rw; auto]. }
      now rewrite Fd.
    + intros Hj. rewrite Rep. destruct (find _ _) as [[nm e]|] eqn:Fd; [|reflexivity]. exfalso.
      apply find_some in Fd as [Hin Hlt]. apply In_nth_error in Hin as [z Hz]. apply combine_nth_inv in Hz as [_ Hz]. cbn [snd] in Hz, Hlt.
      destruct (EndRow z e Hz) as [Le Be]. destruct (nth_error e u) as [x|] eqn:Ex; [|apply nth_error_None in Ex; lia].
      rewrite (nth_error_nth e u 0 Ex) in Hlt. apply Nat.ltb_lt in Hlt. specialize (Be u x n Ex Hn). lia.
Qed.
End Zones.
