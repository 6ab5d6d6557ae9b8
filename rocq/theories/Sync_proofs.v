From Coq Require Import List Arith Bool Lia Sorted Permutation.
From Verif Require Import Loop_model Loop_proofs StdMap_model StdMap_proofs Submesh_model Submesh_spec Submesh_proofs SubmeshMore_proofs Sync_model.
Import ListNotations.

Notation triple := (nat * nat * nat)%type.
Definition triple_dec (x y : triple) : {x = y} + {x <> y}.
Proof. decide equality; [apply Nat.eq_dec|decide equality; apply Nat.eq_dec]. Defined.
Definition swap (t : triple) : triple := let '(p, q, e) := t in (q, p, e).
Lemma swap_swap t : swap (swap t) = t.
Proof. destruct t as [[p q] e]. reflexivity. Qed.

Notation count := (count_occ triple_dec).
Lemma count_flat {B} (f : B -> list triple) l x : count (flat_map f l) x = list_sum (map (fun a => count (f a) x) l).
Proof. induction l as [|a l IH]; [reflexivity|]. cbn [flat_map map]. rewrite count_occ_app, IH. reflexivity. Qed.
Lemma sum_keyed {V} (m : list (nat * V)) (g : nat -> V -> nat) k : NoDup (map fst m) -> (forall k' v, k' <> k -> g k' v = 0) ->
  list_sum (map (fun '(k', v) => g k' v) m) = match mfind Nat.ltb k m with Some v => g k v | None => 0 end.
Proof.
  intros ND Z. induction m as [|[k' v] m IH]; [reflexivity|]. inversion ND as [|? ? N ND']; subst. specialize (IH ND').
  cbn [map mfind]. change (list_sum (g k' v :: map (fun '(k', v) => g k' v) m)) with (g k' v + list_sum (map (fun '(k', v) => g k' v) m)). rewrite IH.
  destruct (Nat.ltb_spec k k') as [H|H]; [rewrite Z by lia; reflexivity|]. destruct (Nat.ltb_spec k' k) as [H'|H']; [rewrite Z by lia; reflexivity|].
  assert (k' = k) by lia. subst k'. replace (mfind Nat.ltb k m) with (@None V); [lia|]. symmetry.
  destruct (mfind Nat.ltb k m) eqn:E; [|reflexivity]. exfalso. apply N. apply (in_keys Nat.ltb nat_strict_total). congruence.
Qed.
Lemma combine_find (system : list submesh) : forall first p, mfind Nat.ltb p (combine (seq first (length system)) system) = if p <? first then None else nth_error system (p - first).
Proof.
  induction system as [|s system IH]; intros first p; cbn [length seq combine mfind].
  - destruct (p <? first); [reflexivity|]. destruct (p - first); reflexivity.
  - rewrite IH. destruct (Nat.ltb_spec p first) as [H|H].
    + destruct (Nat.ltb_spec p (S first)); [reflexivity|lia].
    + destruct (Nat.ltb_spec first p) as [H'|H'].
      * destruct (Nat.ltb_spec p (S first)); [lia|]. replace (p - first) with (S (p - S first)) by lia. reflexivity.
      * replace (p - first) with 0 by lia. reflexivity.
Qed.
Lemma combine_keys (system : list submesh) first : map fst (combine (seq first (length system)) system) = seq first (length system).
Proof. revert first; induction system as [|s system IH]; intros first; [reflexivity|]. cbn. rewrite IH. reflexivity. Qed.

Section Sync.
Context {A : Type}.
Definition receives_of (l : list action) : list triple := flat_map (fun a => match a with Receive p q e => [(p, q, e)] | Send _ _ _ => [] end) l.
Definition sends_of (l : list action) : list triple := flat_map (fun a => match a with Send p q e => [(p, q, e)] | Receive _ _ _ => [] end) l.
Lemma receives_of_app l l' : receives_of (l ++ l') = receives_of l ++ receives_of l'.
Proof. apply flat_map_app. Qed.
Lemma sends_of_app l l' : sends_of (l ++ l') = sends_of l ++ sends_of l'.
Proof. apply flat_map_app. Qed.
Definition allReceives (c : @state A) : list triple := receives c ++ receives_of (todo c).
Definition allSends (c : @state A) : list triple := map fst (sends c) ++ sends_of (todo c).

(** the calls, counted *)
Definition pending (m : @memory A) (p e : nat) (l : list nat) : nat := if length (m p e) =? 0 then 0 else count_occ Nat.eq_dec l e.
Lemma flat_flat {B C D} (f : C -> list D) (g : B -> list C) l : flat_map f (flat_map g l) = flat_map (fun b => flat_map f (g b)) l.
Proof. induction l as [|x l IH]; [reflexivity|]. cbn. rewrite flat_map_app, IH. reflexivity. Qed.
Lemma flat_ext {B C} (f g : B -> list C) l : (forall x, f x = g x) -> flat_map f l = flat_map g l.
Proof. intros H. induction l as [|x l IH]; [reflexivity|]. cbn. rewrite H, IH. reflexivity. Qed.
Lemma flat_nil {B C} (f : B -> list C) l : (forall x, f x = []) -> flat_map f l = [].
Proof. intros H. induction l as [|x l IH]; [reflexivity|]. cbn. rewrite H, IH. reflexivity. Qed.

Lemma count_one (m : @memory A) p q l (t : triple) :
  count (flat_map (fun e => if length (m p e) =? 0 then [] else [(p, q, e)]) l) t = let '(p', q', e') := t in if (p' =? p) && (q' =? q) then pending m p e' l else 0.
Proof.
  destruct t as [[p' q'] e']. unfold pending. induction l as [|e l IH]; cbn [flat_map].
  - cbn. destruct ((p' =? p) && (q' =? q)), (length (m p e') =? 0); reflexivity.
  - rewrite count_occ_app, IH. clear IH. cbn [count_occ].
    destruct (Nat.eqb_spec p' p) as [->|Np]; [destruct (Nat.eqb_spec q' q) as [->|Nq]|]; cbn [andb].
    + destruct (Nat.eq_dec e e') as [->|Ne].
      * destruct (length (m p e') =? 0) eqn:E; [reflexivity|]. cbn [count_occ]. destruct (triple_dec (p, q, e') (p, q, e')); [reflexivity|congruence].
      * destruct (length (m p e) =? 0); [reflexivity|]. cbn [count_occ]. destruct (triple_dec (p, q, e) (p, q, e')); [congruence|reflexivity].
    + destruct (length (m p e) =? 0); [reflexivity|]. cbn [count_occ]. destruct (triple_dec (p, q, e) (p, q', e')); [congruence|reflexivity].
    + destruct (length (m p e) =? 0); [reflexivity|]. cbn [count_occ]. destruct (triple_dec (p, q, e) (p', q', e')); [congruence|reflexivity].
Qed.
Lemma pending_nil (m : @memory A) p e : pending m p e [] = 0.
Proof. unfold pending. destruct (_ =? 0); reflexivity. Qed.
Lemma count_map (m : @memory A) p (mp : list (nat * list nat)) p' q' e' : kept mp ->
  count (flat_map (fun '(q, l) => flat_map (fun e => if length (m p e) =? 0 then [] else [(p, q, e)]) l) mp) (p', q', e') = if p' =? p then pending m p e' (entry mp q') else 0.
Proof.
  intros K. rewrite count_flat. destruct (Nat.eqb_spec p' p) as [->|Np].
  - transitivity (list_sum (map (fun '(q, l) => if q' =? q then pending m p e' l else 0) mp)).
    { f_equal. apply map_ext. intros [q l]. rewrite count_one, Nat.eqb_refl. reflexivity. }
    rewrite (sum_keyed mp (fun q l => if q' =? q then pending m p e' l else 0) q').
    + unfold entry. rewrite Nat.eqb_refl. destruct (mfind Nat.ltb q' mp); [reflexivity|symmetry; apply pending_nil].
    + apply (ksorted_nodup Nat.ltb nat_strict_total), K.
    + intros k' v N. destruct (Nat.eqb_spec q' k'); [congruence|reflexivity].
  - transitivity (list_sum (map (fun _ : nat * list nat => 0) mp)).
    + f_equal. apply map_ext. intros [q l]. rewrite count_one. destruct (Nat.eqb_spec p' p); [congruence|reflexivity].
    + clear. induction mp; [reflexivity|assumption].
Qed.
Lemma calls_receives (m : @memory A) p s :
  receives_of (calls m p s) = flat_map (fun '(q, l) => flat_map (fun e => if length (m p e) =? 0 then [] else [(p, q, e)]) l) (pullElements s) /\
  sends_of (calls m p s) = flat_map (fun '(q, l) => flat_map (fun e => if length (m p e) =? 0 then [] else [(p, q, e)]) l) (pushElements s).
Proof.
  unfold calls. rewrite receives_of_app, sends_of_app. unfold receives_of, sends_of. rewrite !flat_flat. split.
  - rewrite (flat_nil _ (pushElements s)), app_nil_r.
    + apply flat_ext. intros [q l]. rewrite flat_flat. apply flat_ext. intros e. destruct (_ =? 0); reflexivity.
    + intros [q l]. rewrite flat_flat. apply flat_nil. intros e. destruct (_ =? 0); reflexivity.
  - rewrite (flat_nil _ (pullElements s)).
    + apply flat_ext. intros [q l]. rewrite flat_flat. apply flat_ext. intros e. destruct (_ =? 0); reflexivity.
    + intros [q l]. rewrite flat_flat. apply flat_nil. intros e. destruct (_ =? 0); reflexivity.
Qed.

Definition allKept (system : list submesh) : Prop := forall r s, nth_error system r = Some s -> kept (pullElements s) /\ kept (pushElements s).
Lemma count_system (m : @memory A) system (part : submesh -> list (nat * list nat)) p q e :
  (forall r s, nth_error system r = Some s -> kept (part s)) ->
  count (flat_map (fun '(p, s) => flat_map (fun '(q, l) => flat_map (fun e => if length (m p e) =? 0 then [] else [(p, q, e)]) l) (part s)) (combine (seq 0 (length system)) system)) (p, q, e) =
  pending m p e (match nth_error system p with Some s => entry (part s) q | None => [] end).
Proof.
  intros K. rewrite count_flat.
  assert (KI : forall x, In x (combine (seq 0 (length system)) system) -> kept (part (snd x))).
  { intros [r s] H. apply in_combine_r in H. apply In_nth_error in H. destruct H as (i & H). apply (K i s H). }
  transitivity (list_sum (map (fun '(r, s) => if p =? r then pending m p e (entry (part s) q) else 0) (combine (seq 0 (length system)) system))).
  { f_equal. apply map_ext_in. intros [r s] H. rewrite count_map by exact (KI _ H). destruct (Nat.eqb_spec p r) as [->|N]; reflexivity. }
  rewrite (sum_keyed _ (fun r s => if p =? r then pending m p e (entry (part s) q) else 0) p).
  - rewrite combine_find. cbn [Nat.ltb Nat.leb]. rewrite Nat.sub_0_r, Nat.eqb_refl. destruct (nth_error system p); [reflexivity|symmetry; apply pending_nil].
  - rewrite combine_keys. apply seq_NoDup.
  - intros k' v N. destruct (Nat.eqb_spec p k'); [congruence|reflexivity].
Qed.
Lemma start_receives (m : @memory A) system p q e : allKept system -> count (allReceives (start system m)) (p, q, e) = pending m p e (pulls system p q).
Proof.
  intros K. unfold allReceives, start. cbn [receives todo app]. unfold receives_of. rewrite flat_flat.
  unfold pulls. rewrite <- (count_system m system pullElements p q e) by (intros r s H; apply (K r s H)). f_equal. apply flat_ext.
  intros [r s]. apply (calls_receives m r s).
Qed.
Lemma start_sends (m : @memory A) system p q e : allKept system -> count (allSends (start system m)) (p, q, e) = pending m p e (pushes system p q).
Proof.
  intros K. unfold allSends, start. cbn [sends todo app map]. unfold sends_of. rewrite flat_flat.
  unfold pushes. rewrite <- (count_system m system pushElements p q e) by (intros r s H; apply (K r s H)). f_equal. apply flat_ext.
  intros [r s]. apply (calls_receives m r s).
Qed.

Section Run.
Variables (system : list submesh) (m : @memory A).
Hypothesis K : allKept system.
Hypothesis symmetric : forall p q, pulls system p q = pushes system q p.
Hypothesis stays : forall p q e q', In e (pulls system p q) -> ~ In e (pulls system q q').
Hypothesis from_one : forall p q e q', In e (pulls system p q) -> In e (pulls system p q') -> q = q'.
Hypothesis sizes : forall p q e, In e (pulls system p q) -> length (m p e) = length (m q e).

Record running (c : @state A) : Prop := {
  r_perm : Permutation (allSends c) (map swap (allReceives c));
  r_listed : forall p q e, In (p, q, e) (allReceives c) -> In e (pulls system p q);
  r_data : forall p e, (data c p e = m p e) \/ exists q, In e (pulls system p q) /\ data c p e = m q e;
  r_todo : forall p q e, In e (pulls system p q) -> In (p, q, e) (allReceives c) \/ data c p e = m q e;
  r_copy : forall q p e v, In (q, p, e, Some v) (sends c) -> v = m q e }.

Lemma start_running : running (start system m).
Proof.
  split.
  - apply (Permutation_count_occ triple_dec). intros [[q p] e]. rewrite start_sends by exact K.
    assert (E : count (map swap (allReceives (start system m))) (q, p, e) = count (allReceives (start system m)) (p, q, e)).
    { change (q, p, e) with (swap (p, q, e)). generalize (p, q, e). intros t. induction (allReceives (start system m)) as [|x l IH]; [reflexivity|].
      cbn [map count_occ]. rewrite IH. destruct (triple_dec (swap x) (swap t)) as [H|H], (triple_dec x t) as [H'|H']; try reflexivity; [|congruence].
      exfalso. apply H'. rewrite <- (swap_swap x), H. apply swap_swap. }
    rewrite E, start_receives by exact K. rewrite <- symmetric. unfold pending.
    destruct (in_dec Nat.eq_dec e (pulls system p q)) as [I|I]; [rewrite (sizes p q e I); reflexivity|].
    rewrite (proj1 (count_occ_not_In Nat.eq_dec _ _) I). destruct (length (m q e) =? 0), (length (m p e) =? 0); reflexivity.
  - intros p q e H. apply (count_occ_In triple_dec) in H. rewrite start_receives in H by exact K. unfold pending in H. destruct (_ =? 0); [lia|].
    apply (count_occ_In Nat.eq_dec). exact H.
  - intros p e. left. reflexivity.
  - intros p q e H. destruct (length (m p e)) as [|k] eqn:E.
    + right. cbn. pose proof (sizes p q e H) as S. rewrite E in S. destruct (m p e); [|discriminate]. destruct (m q e); [reflexivity|discriminate].
    + left. apply (count_occ_In triple_dec). rewrite start_receives by exact K. unfold pending. rewrite E. cbn [Nat.eqb]. apply (count_occ_In Nat.eq_dec), H.
  - intros q p e v [].
Qed.

Lemma sent_ok c p q e d : running c -> In (p, q, e) (receives c) -> In (q, p, e, d) (sends c) -> sent c q e d = m q e /\ length (data c p e) = length (m q e).
Proof.
  intros [R1 R2 R3 R4 R5] HR HS. assert (I : In e (pulls system p q)) by (apply R2; unfold allReceives; apply in_or_app; left; exact HR).
  assert (Own : data c q e = m q e) by (destruct (R3 q e) as [E|(q' & I' & _)]; [exact E|destruct (stays p q e q' I I')]).
  split.
  - destruct d as [v|]; cbn [sent]; [apply (R5 q p e v HS)|exact Own].
  - destruct (R3 p e) as [E|(q' & I' & E)]; rewrite E; [apply (sizes p q e I)|]. assert (q' = q) by (apply (from_one p q' e q); assumption). subst. reflexivity.
Qed.

Lemma step_running c c' : running c -> step c c' -> running c'.
Proof.
  intros R S. pose proof R as [R1 R2 R3 R4 R5]. destruct S as [c before p q e after T O|c before p q e after d T O D|c p q e d r1 r2 s1 s2 HR HS L].
  - assert (P : Permutation (allReceives c) (allReceives (State (before ++ after) (receives c ++ [(p, q, e)]) (sends c) (data c)))).
    { unfold allReceives. cbn [receives todo]. rewrite T, !receives_of_app. cbn [receives_of flat_map app]. fold (receives_of after).
      rewrite <- app_assoc. apply Permutation_app_head. cbn [app]. symmetry. apply Permutation_middle. }
    split.
    + unfold allSends in *. cbn [sends todo]. rewrite T, sends_of_app in R1. cbn [sends_of flat_map app] in R1. fold (sends_of after) in R1. rewrite <- sends_of_app in R1.
      rewrite R1. apply Permutation_map, P.
    + intros a b x H. apply R2. eapply Permutation_in; [symmetry; exact P|exact H].
    + exact R3.
    + intros a b x H. destruct (R4 a b x H) as [I|E]; [left; eapply Permutation_in; [exact P|exact I]|right; exact E].
    + exact R5.
  - assert (P : Permutation (allSends c) (allSends (State (before ++ after) (receives c) (sends c ++ [(p, q, e, d)]) (data c)))).
    { unfold allSends. cbn [sends todo]. rewrite T, !sends_of_app, map_app. cbn [sends_of flat_map app map fst]. fold (sends_of after).
      rewrite <- app_assoc. apply Permutation_app_head. cbn [app]. symmetry. apply Permutation_middle. }
    assert (Q : allReceives (State (before ++ after) (receives c) (sends c ++ [(p, q, e, d)]) (data c)) = allReceives c).
    { unfold allReceives. cbn [receives todo]. rewrite T, !receives_of_app. reflexivity. }
    split.
    + rewrite Q, <- P. exact R1.
    + intros a b x. rewrite Q. apply R2.
    + exact R3.
    + intros a b x. rewrite Q. apply R4.
    + intros a b x v H. cbn [sends] in H. apply in_app_or in H. destruct H as [H|[H|[]]]; [apply (R5 a b x v H)|]. injection H as <- <- <- ->.
      destruct D as [D|D]; [discriminate|]. injection D as ->.
      assert (I : In e (pulls system q p)).
      { apply R2. assert (J : In (p, q, e) (allSends c)) by (unfold allSends; rewrite T, sends_of_app; apply in_or_app; right; apply in_or_app; right; left; reflexivity).
        eapply Permutation_in in J; [|exact R1]. apply in_map_iff in J. destruct J as ([[a b] x] & E & J). injection E as -> -> ->. exact J. }
      destruct (R3 p e) as [E|(q' & I' & _)]; [exact E|destruct (stays q p e q' I I')].
  - destruct (sent_ok c p q e d R) as (E1 & E2); [rewrite HR; apply in_elt|rewrite HS; apply in_elt|].
    assert (New : sent c q e d ++ skipn (length (sent c q e d)) (data c p e) = m q e).
    { rewrite E1, skipn_all2 by lia. apply app_nil_r. }
    assert (I : In e (pulls system p q)) by (apply R2; unfold allReceives; rewrite HR; apply in_or_app; left; apply in_elt).
    assert (P : Permutation (allReceives c) ((p, q, e) :: r1 ++ r2 ++ receives_of (todo c))).
    { unfold allReceives. rewrite HR, <- app_assoc. cbn [app]. symmetry. apply Permutation_middle. }
    split.
    + unfold allSends, allReceives in *. cbn [sends receives todo]. rewrite HR, HS in R1. rewrite map_app, <- app_assoc in R1. cbn [map fst app] in R1.
      rewrite <- app_assoc, map_app in R1. cbn [map app swap] in R1.
      rewrite map_app, <- !app_assoc, map_app. apply (Permutation_app_inv _ _ _ _ (q, p, e)). exact R1.
    + intros a b x H. apply R2. eapply Permutation_in; [symmetry; exact P|]. right. unfold allReceives in H. cbn [receives todo] in H. rewrite <- app_assoc in H. exact H.
    + intros a x. cbn [data]. unfold update. destruct (Nat.eqb_spec a p) as [->|Na]; [destruct (Nat.eqb_spec x e) as [->|Nx]|]; cbn [andb]; try apply R3.
      right. exists q. split; [exact I|exact New].
    + intros a b x H. cbn [data]. unfold update. destruct (Nat.eqb_spec a p) as [->|Na]; [destruct (Nat.eqb_spec x e) as [->|Nx]|]; cbn [andb].
      * right. rewrite New. f_equal. apply (from_one p q e b I H).
      * destruct (R4 p b x H) as [J|J]; [left|right; exact J]. eapply Permutation_in in J; [|exact P]. destruct J as [J|J]; [congruence|].
        unfold allReceives. cbn [receives todo]. rewrite <- app_assoc. exact J.
      * destruct (R4 a b x H) as [J|J]; [left|right; exact J]. eapply Permutation_in in J; [|exact P]. destruct J as [J|J]; [congruence|].
        unfold allReceives. cbn [receives todo]. rewrite <- app_assoc. exact J.
    + intros a b x v H. apply (R5 a b x v). cbn [sends] in H. rewrite HS. apply in_app_or in H. apply in_or_app. destruct H as [H|H]; [left; exact H|right; right; exact H].
Qed.

Lemma running_progress c : running c -> ~ truncated c /\ ((exists c', step c c') \/ finished c).
Proof.
  intros R. split.
  - intros (p & q & e & d & HR & HS & L). destruct (sent_ok c p q e d R HR HS) as (E1 & E2). rewrite E1, E2 in L. lia.
  - destruct (todo c) as [|[p q e|p q e] l] eqn:T.
    + destruct (receives c) as [|[[p q] e] r] eqn:ER.
      * right. pose proof (r_perm c R) as P. unfold allSends, allReceives in P. rewrite T, ER in P. cbn in P. rewrite app_nil_r in P. apply Permutation_sym, Permutation_nil in P.
        split; [exact T|]. split; [exact ER|]. destruct (sends c); [reflexivity|discriminate].
      * left. assert (J : In (q, p, e) (map fst (sends c))).
        { pose proof (r_perm c R) as P. unfold allSends, allReceives in P. rewrite T, ER in P. cbn in P. rewrite !app_nil_r in P. eapply Permutation_in; [symmetry; exact P|]. left. reflexivity. }
        apply in_map_iff in J. destruct J as ([t d] & Et & J). cbn in Et. subst t. destruct (in_split _ _ J) as (s1 & s2 & ES).
        destruct (sent_ok c p q e d R) as (E1 & E2); [rewrite ER; left; reflexivity|exact J|].
        eexists. eapply (step_transfer c p q e d [] r s1 s2); [exact ER|exact ES|]. rewrite E1, E2. lia.
    + left. eexists. apply (step_receive c [] p q e l T). intros a [].
    + left. eexists. apply (step_send c [] p q e l None T); [intros a []|left; reflexivity].
Qed.
Lemma running_finished c : running c -> finished c ->
  (forall p q e, In e (pulls system p q) -> data c p e = m q e) /\ (forall p e, (forall q, ~ In e (pulls system p q)) -> data c p e = m p e).
Proof.
  intros [R1 R2 R3 R4 R5] (T & ER & ES). split.
  - intros p q e H. destruct (R4 p q e H) as [J|J]; [|exact J]. unfold allReceives in J. rewrite T, ER in J. destruct J.
  - intros p e H. destruct (R3 p e) as [E|(q & I & _)]; [exact E|destruct (H q I)].
Qed.

Definition measure (c : @state A) : nat := 2 * length (todo c) + length (receives c) + length (sends c).
Lemma step_measure c c' : step c c' -> measure c' < measure c.
Proof.
  intros S. unfold measure. destruct S as [c before p q e after T O|c before p q e after d T O D|c p q e d r1 r2 s1 s2 HR HS L]; cbn [todo receives sends].
  - rewrite T, !app_length. cbn [length]. lia.
  - rewrite T, !app_length. cbn [length]. lia.
  - rewrite HR, HS, !app_length. cbn [length]. lia.
Qed.
Lemma steps_running k c : steps k (start system m) c -> running c /\ k + measure c <= measure (start system m).
Proof.
  intros H. remember (start system m) as c0 eqn:E. induction H as [|k c0 c' c'' H IH S]; subst.
  - split; [apply start_running|lia].
  - destruct (IH eq_refl) as (R & L). split; [apply (step_running _ _ R S)|]. pose proof (step_measure _ _ S). lia.
Qed.
End Run.
End Sync.

Lemma synchronized {A} n top first lines ops system (m : @memory A) :
  valid_file n lines -> first + length lines <= top -> valid_ops n top ops -> history top ops (read n first lines) = Some system ->
  (forall p q e, In e (pulls system p q) -> length (m p e) = length (m q e)) ->
  exists bound, forall k c, steps k (start system m) c ->
    k <= bound /\ ~ truncated c /\ ((exists c', step c c') \/ finished c) /\
    (finished c -> (forall p q e, In e (pulls system p q) -> data c p e = m q e) /\ (forall p e, (forall q, ~ In e (pulls system p q)) -> data c p e = m p e)).
Proof.
  intros V T O H S. destruct (history_good n top first lines ops _ (read_good n top first lines V T) O) as (system' & E & G).
  assert (system' = system) by congruence. subst. pose proof (partition_unique n top first lines system) as U. pose proof G as [G1 G2 G3 G4 G5 G6].
  assert (Stay : forall p q e q', In e (pulls system p q) -> ~ In e (pulls system q q')).
  { intros p q e q' I I'. destruct (G5 _ _ _ I) as (_ & O1). destruct (G5 _ _ _ I') as (N & O2). apply N. exact (U q q' e G O1 O2). }
  assert (One : forall p q e q', In e (pulls system p q) -> In e (pulls system p q') -> q = q').
  { intros p q e q' I I'. destruct (G5 _ _ _ I) as (_ & O1). destruct (G5 _ _ _ I') as (_ & O2). exact (U q q' e G O1 O2). }
  exists (measure (start system m)). intros k c Hk.
  destruct (steps_running system m G6 G4 Stay One S k c Hk) as (R & L). split; [lia|].
  destruct (running_progress system m Stay One S c R) as (P1 & P2). split; [exact P1|]. split; [exact P2|]. apply (running_finished system m c R).
Qed.
