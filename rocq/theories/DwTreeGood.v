(** Good debugging entries: which are kept, and what the map of addresses holds. *)
From Coq Require Import Sorted Permutation.
From Verif Require Import Base ISort RangeMapModel RangeMapProofs DwLineModel DwTreeModel DwTreeSpec DwTreeWalk DwTreeBad DwTreeMap.

(** *** Where the entries of a forest are *)
Fixpoint placed (st : state) (ou : option bool) (parent : option nat) (base : nat) (f : forest) : Prop :=
  match f with
  | FNil => True
  | FCons n k r => obj base st = sub_of (used_of ou n) parent n /\ placed st (Some (used_of ou n)) (Some base) (S base) k /\ placed st ou parent (S base + size k) r
  end.
Lemma placed_objects st f : forall ou parent pre suf, objs st = pre ++ objects ou parent (length pre) f ++ suf -> placed st ou parent (length pre) f.
Proof.
  induction f as [|n k IHk r IHr]; intros ou parent pre suf E; cbn [placed]; [exact Logic.I|]. cbn [objects] in E. split; [|split].
  - unfold obj. rewrite E. apply nth_mid.
  - assert (L : S (length pre) = length (pre ++ [sub_of (used_of ou n) parent n])) by (rewrite app_length; cbn [length]; lia). rewrite L. apply IHk with (suf := objects ou parent (S (length pre) + size k) r ++ suf). rewrite <- L, E. rewrite <- !app_assoc. cbn [app]. rewrite <- !app_assoc. reflexivity.
  - assert (L : (S (length pre) + size k = length (pre ++ sub_of (used_of ou n) parent n :: objects (Some (used_of ou n)) (Some (length pre)) (S (length pre)) k))%nat) by (rewrite app_length; cbn [length]; rewrite size_objects; lia).
    rewrite L. apply IHr with (suf := suf). rewrite <- L, E. rewrite <- !app_assoc. cbn [app]. rewrite <- !app_assoc. reflexivity.
Qed.
Fixpoint sits (base : nat) (f : forest) (i : nat) (n : node) : Prop :=
  match f with FNil => False | FCons m k r => (i = base /\ n = m) \/ sits (S base) k i n \/ sits (S base + size k) r i n end.
Lemma sits_bounds f : forall base i n, sits base f i n -> (base <= i < base + size f)%nat.
Proof. induction f as [|m k IHk r IHr]; intros base i n H; cbn [sits size] in *; [destruct H|]. destruct H as [(-> & _)|[H|H]]; [lia|apply IHk in H; lia|apply IHr in H; lia]. Qed.
Lemma sits_nodes f : forall base i n, sits base f i n -> In n (nodes f).
Proof. induction f as [|m k IHk r IHr]; intros base i n H; cbn [sits nodes] in *; [destruct H|]. destruct H as [(_ & ->)|[H|H]]; [left; reflexivity|right; apply in_or_app; left; eapply IHk; exact H|right; apply in_or_app; right; eapply IHr; exact H]. Qed.
Lemma nodes_sit f : forall base n, In n (nodes f) -> exists i, sits base f i n.
Proof.
  induction f as [|m k IHk r IHr]; intros base n H; cbn [sits nodes] in *; [destruct H|]. destruct H as [->|H]; [exists base; left; split; reflexivity|]. apply in_app_or in H. destruct H as [H|H]; [destruct (IHk (S base) n H) as (i & Hi)|destruct (IHr (S base + size k)%nat n H) as (i & Hi)]; exists i; tauto.
Qed.
Lemma placed_sits st f : forall ou parent base i n, placed st ou parent base f -> sits base f i n -> exists u p, obj i st = sub_of u p n.
Proof.
  induction f as [|m k IHk r IHr]; intros ou parent base i n P H; cbn [sits placed] in *; [destruct H|]. destruct P as (P1 & P2 & P3). destruct H as [(-> & ->)|[H|H]]; [eexists _, _; exact P1|eapply IHk; eassumption|eapply IHr; eassumption].
Qed.
Lemma post_false f : forall base, post (Some false) base f = [].
Proof. induction f as [|m k IHk r IHr]; intros base; cbn [post used_of]; [reflexivity|]. rewrite IHk, IHr. reflexivity. Qed.
Lemma post_true f : forall base i, In i (post (Some true) base f) <-> exists n, sits base f i n.
Proof.
  induction f as [|m k IHk r IHr]; intros base i; cbn [post used_of sits]; [split; [intros []|intros (n & [])]|]. rewrite !in_app_iff, IHk, IHr. cbn [In]. split.
  - intros [(n & A)|[[A|[]]|(n & A)]]; [exists n; tauto|exists m; left; split; [symmetry; exact A|reflexivity]|exists n; tauto].
  - intros (n & [(A & _)|[A|A]]); [right; left; left; symmetry; exact A|left; exists n; exact A|right; right; exists n; exact A].
Qed.
Fixpoint roots (base : nat) (f : forest) : list (nat * node * forest) := match f with FNil => [] | FCons n k r => (base, n, k) :: roots (S base + size k) r end.
Lemma roots_trees f : forall base b n k, In (b, n, k) (roots base f) -> In (n, k) (trees f) /\ (base <= b)%nat /\ (b + size k < base + size f)%nat.
Proof.
  induction f as [|m k' _ r IHr]; intros base b n k H; cbn [roots trees size] in *; [destruct H|]. destruct H as [H|H]; [injection H as -> -> ->; split; [left; reflexivity|lia]|]. apply IHr in H. destruct H as (A & B & C). split; [right; exact A|lia].
Qed.
Lemma trees_roots f : forall base n k, In (n, k) (trees f) -> exists b, In (b, n, k) (roots base f).
Proof. induction f as [|m k' _ r IHr]; intros base n k H; cbn [roots trees] in *; [destruct H|]. destruct H as [H|H]; [injection H as -> ->; exists base; left; reflexivity|]. destruct (IHr (S base + size k')%nat n k H) as (b & Hb). exists b. right. exact Hb. Qed.
Lemma post_roots f : forall base i, In i (post None base f) <-> exists b n k, In (b, n, k) (roots base f) /\ root_used (n_info n) = true /\ (i = b \/ exists m, sits (S b) k i m).
Proof.
  induction f as [|n k _ r IHr]; intros base i; cbn [post used_of roots]; [split; [intros []|intros (b & n & k & [] & _)]|]. rewrite !in_app_iff, IHr. split.
  - intros [A|[A|(b & n' & k' & A & B)]].
    + destruct (root_used (n_info n)) eqn:U; [|rewrite post_false in A; destruct A]. apply post_true in A. exists base, n, k. split; [left; reflexivity|]. split; [exact U|right; exact A].
    + destruct (root_used (n_info n)) eqn:U; [|destruct A]. destruct A as [->|[]]. exists i, n, k. split; [left; reflexivity|]. split; [exact U|left; reflexivity].
    + exists b, n', k'. split; [right; exact A|exact B].
  - intros (b & n' & k' & [A|A] & U & B).
    + injection A as -> -> ->. rewrite U. destruct B as [->|B]; [right; left; left; reflexivity|left; apply post_true; exact B].
    + right. right. exists b, n', k'. tauto.
Qed.
Lemma post_split f : forall base b n k, In (b, n, k) (roots base f) -> root_used (n_info n) = true -> exists A B, post None base f = A ++ (post (Some true) (S b) k ++ [b]) ++ B.
Proof.
  induction f as [|m k' _ r IHr]; intros base b n k H U; cbn [roots post used_of] in *; [destruct H|]. destruct H as [H|H].
  - injection H as -> -> ->. rewrite U. exists [], (post None (S b + size k) r). cbn [app]. rewrite <- app_assoc. reflexivity.
  - destruct (IHr _ b n k H U) as (A & B & ->). exists (post (Some (root_used (n_info m))) (S base) k' ++ (if root_used (n_info m) then [base] else []) ++ A), B. rewrite <- !app_assoc. reflexivity.
Qed.
Lemma post_bounds f : forall ou base i, In i (post ou base f) -> (base <= i < base + size f)%nat.
Proof.
  induction f as [|m k IHk r IHr]; intros ou base i H; cbn [post size] in *; [destruct H|]. rewrite !in_app_iff in H. destruct H as [H|[H|H]]; [apply IHk in H; lia| |apply IHr in H; lia]. destruct (used_of ou m); [|destruct H]. destruct H as [->|[]]. lia.
Qed.
Lemma post_NoDup f : forall ou base, NoDup (post ou base f).
Proof.
  assert (G : forall (a b : list nat), NoDup a -> NoDup b -> (forall x, In x a -> In x b -> False) -> NoDup (a ++ b)).
  { induction a as [|x a IH]; intros b NA NB D; [exact NB|]. cbn [app]. inversion NA as [|? ? N1 N2]; subst. constructor; [|apply IH; [exact N2|exact NB|intros y H1 H2; apply (D y); [right; exact H1|exact H2]]]. rewrite in_app_iff. intros [A|A]; [exact (N1 A)|apply (D x); [left; reflexivity|exact A]]. }
  induction f as [|m k IHk r IHr]; intros ou base; cbn [post]; [constructor|]. apply G; [apply IHk|apply G; [destruct (used_of ou m); repeat constructor; intros []|apply IHr|]|].
  - intros x A B. apply post_bounds in B. destruct (used_of ou m); [|destruct A]. destruct A as [->|[]]. lia.
  - intros x A B. apply post_bounds in A. apply in_app_or in B. destruct B as [B|B]; [|apply post_bounds in B; lia]. destruct (used_of ou m); [|destruct B]. destruct B as [->|[]]. lia.
Qed.
Lemma placed_roots st f : forall base b n k, placed st None None base f -> In (b, n, k) (roots base f) -> obj b st = sub_of (root_used (n_info n)) None n /\ placed st (Some (root_used (n_info n))) (Some b) (S b) k.
Proof. induction f as [|m k' _ r IHr]; intros base b n k P H; cbn [roots placed] in *; [destruct H|]. destruct P as (P1 & P2 & P3). destruct H as [H|H]; [injection H as -> -> ->; split; assumption|eapply IHr; eassumption]. Qed.

(** *** Nested calls *)
Lemma nested_nodes k : forall outer, nested outer k -> Forall (fun m => n_inlined m = true /\ (forall q, In q (ranges m) -> fst q < snd q) /\ within (ranges m) outer) (nodes k).
Proof.
  induction k as [|n k IHk r IHr]; intros outer N; cbn [nodes nested] in *; [constructor|]. destruct N as (A & B & C & D & E & F). constructor; [tauto|]. apply Forall_app. split; [|apply IHr; exact F]. eapply Forall_impl; [|apply (IHk _ D)]. cbv beta. intros m (M1 & M2 & M3). split; [exact M1|]. split; [exact M2|].
  intros q Hq. destruct (M3 q Hq) as (q1 & I1 & L1). destruct (C q1 I1) as (q2 & I2 & L2). exists q2. split; [exact I2|lia].
Qed.
Lemma contains_within a b : SubprogramContains a b = true <-> within (s_ranges b) (s_ranges a).
Proof.
  unfold SubprogramContains. rewrite forallb_forall. split.
  - intros H r Hr. specialize (H r Hr). apply existsb_exists in H. destruct H as (q & Hq & C). exists q. unfold contains in C. apply andb_true_iff in C. rewrite !Z.leb_le in C. tauto.
  - intros H r Hr. destruct (H r Hr) as (q & Hq & C). apply existsb_exists. exists q. split; [exact Hq|]. unfold contains. apply andb_true_iff. rewrite !Z.leb_le. exact C.
Qed.
Lemma placed_parent st k : forall ou p base outer, placed st ou (Some p) base k -> s_ranges (obj p st) = outer -> nested outer k -> forall i m, sits base k i m ->
  exists q, s_parent (obj i st) = Some q /\ (q = p \/ exists m', sits base k q m') /\ SubprogramContains (obj q st) (obj i st) = true.
Proof.
  induction k as [|n k IHk r IHr]; intros ou p base outer P OR N i m H; cbn [sits placed nested] in *; [destruct H|]. destruct P as (P1 & P2 & P3). destruct N as (A & B & C & D & E & F). destruct H as [(-> & ->)|[H|H]].
  - exists p. rewrite P1. cbn [sub_of s_parent]. split; [reflexivity|]. split; [left; reflexivity|]. apply contains_within. rewrite OR. exact C.
  - destruct (IHk _ base (S base) (ranges n) P2 ltac:(rewrite P1; reflexivity) D i m H) as (q & Q1 & Q2 & Q3). exists q. split; [exact Q1|]. split; [|exact Q3]. right. destruct Q2 as [->|(m' & Q2)]; [exists n; left; split; reflexivity|exists m'; tauto].
  - destruct (IHr _ p _ outer P3 OR F i m H) as (q & Q1 & Q2 & Q3). exists q. split; [exact Q1|]. split; [|exact Q3]. destruct Q2 as [->|(m' & Q2)]; [left; reflexivity|right; exists m'; tauto].
Qed.

(** *** Rules 3 and 4 in general *)
Lemma rule3_id st bad : NoDup (order st) -> (forall i j, In i (order st) -> In j (order st) -> i <> j -> s_inlined (obj i st) = false -> s_inlined (obj j st) = false -> ~ In i bad -> ~ In j bad -> ~ shared st i j) -> rule3 st bad = bad.
Proof.
  intros ND NS. unfold rule3.
  assert (G : forall l done index, order st = done ++ l -> (forall a j, In j (at_start a index) -> In j done /\ s_inlined (obj j st) = false /\ ~ In j bad /\ exists r, In r (s_ranges (obj j st)) /\ fst r = a) ->
    snd (fold_left (fun acc i => rule3_step st i acc) l (index, bad)) = bad).
  { induction l as [|x l IH]; intros done index EO IV; cbn [fold_left]; [reflexivity|]. assert (EO' : order st = (done ++ [x]) ++ l) by (rewrite <- app_assoc; exact EO). unfold rule3_step at 2. fold (others_of st x index).
    assert (SK : snd (fold_left (fun acc i => rule3_step st i acc) l (index, bad)) = bad).
    { apply (IH (done ++ [x]) index EO'). intros a j Hj. destruct (IV a j Hj) as (A & B). split; [apply in_or_app; left; exact A|exact B]. }
    destruct (s_inlined (obj x st)) eqn:EI; cbn [orb]; [exact SK|]. destruct (s_ranges (obj x st)) as [|r0 rs] eqn:ER; cbn [orb]; [exact SK|]. destruct (mem x bad) eqn:EM; cbn [orb]; [exact SK|]. apply mem_not_In in EM.
    assert (NO : others_of st x index = []).
    { destruct (others_of st x index) as [|j o] eqn:EOT; [reflexivity|]. exfalso. assert (Hj : In j (others_of st x index)) by (rewrite EOT; left; reflexivity). apply others_In in Hj. destruct Hj as (r & Hr & Hj). destruct (IV _ _ Hj) as (A & B & C & q & Hq & E).
      assert (NE : j <> x). { intros ->. rewrite EO in ND. apply NoDup_remove_2 in ND. apply ND. apply in_or_app. left. exact A. }
      apply (NS j x); [rewrite EO; apply in_or_app; left; exact A|rewrite EO; apply in_or_app; right; left; reflexivity|exact NE|exact B|exact EI|exact C|exact EM|]. exists q, r. auto. }
    rewrite NO. cbn [existsb fold_left app]. apply (IH (done ++ [x])); [exact EO'|]. intros a j Hj. change (In j (at_start a (fold_left (fun index r => index_insert x (fst r) index) (r0 :: rs) index))) in Hj. rewrite <- ER in Hj. apply inserts_index in Hj. destruct Hj as [Hj|(-> & r & Hr & E)].
    - destruct (IV a j Hj) as (A & B). split; [apply in_or_app; left; exact A|exact B].
    - split; [apply in_or_app; right; left; reflexivity|]. split; [exact EI|]. split; [exact EM|]. exists r. split; assumption. }
  apply (G (order st) [] []); [reflexivity|]. intros a j Hj. unfold at_start in Hj. cbn in Hj. destruct Hj.
Qed.
Lemma rule4_closed st bad (P : nat -> Prop) : (forall i, P i -> ~ In i bad) -> (forall i p, P i -> s_parent (obj i st) = Some p -> P p /\ SubprogramContains (obj p st) (obj i st) = true) -> forall i, P i -> ~ In i (rule4 st bad).
Proof.
  intros NB CL. rewrite rule4_eq. generalize (rev (order st)). intros l. revert bad NB. induction l as [|x l IH]; intros bad NB; cbn [fold_left]; [exact NB|]. apply IH. intros i Pi. destruct (rule4_mark st bad x) eqn:M; [|apply NB; exact Pi]. intros [->|A]; [|exact (NB i Pi A)].
  unfold rule4_mark in M. destruct (s_parent (obj i st)) as [p|] eqn:EP; [|discriminate M]. destruct (CL i p Pi EP) as (Pp & C). rewrite C in M. cbn [negb] in M. rewrite orb_false_r in M. apply mem_In in M. exact (NB p Pp M).
Qed.
Lemma rule4_children st k : forall ou p base bad, placed st ou (Some p) base k -> In p bad -> forall i m, sits base k i m -> In i (fold_left (fun bad i => if rule4_mark st bad i then i :: bad else bad) (rev (post (Some true) base k)) bad).
Proof.
  induction k as [|n k IHk r IHr]; intros ou p base bad P Hp i m H; cbn [sits placed post used_of] in *; [destruct H|]. destruct P as (P1 & P2 & P3). rewrite !rev_app_distr, !fold_left_app. cbn [rev app fold_left].
  set (bad1 := fold_left _ (rev (post (Some true) (S base + size k) r)) bad). assert (Hp1 : In p bad1) by (apply mark_mono; exact Hp).
  assert (M : rule4_mark st bad1 base = true) by (unfold rule4_mark; rewrite P1; cbn [sub_of s_parent]; apply mem_In in Hp1; rewrite Hp1; reflexivity).
  rewrite M. destruct H as [(-> & _)|[H|H]].
  - apply mark_mono. left. reflexivity.
  - apply (IHk (Some (used_of ou n)) base (S base) (base :: bad1) P2 (or_introl eq_refl) i m H).
  - apply mark_mono. right. apply (IHr ou p _ bad P3 Hp i m H).
Qed.

(** *** Good forests *)
Notation sorted := (StronglySorted (fun r r' : Z * Z => snd r <= fst r')).
Lemma good_trees vaddr f : good_forest vaddr f -> forall t, In t (trees f) -> dead vaddr t \/ live vaddr t.
Proof. induction f as [|n k _ r IHr]; intros G t H; cbn [trees good_forest] in *; [destruct H|]. destruct G as (G1 & G2). destruct H as [<-|H]; [tauto|apply IHr; assumption]. Qed.
Lemma disjoint_sym a b : disjoint a b -> disjoint b a.
Proof. intros D r r' H H'. destruct (D r' r H' H); tauto. Qed.
Lemma roots_index f : forall base b n k n' k', In (b, n, k) (roots base f) -> In (b, n', k') (roots base f) -> (n, k) = (n', k').
Proof.
  induction f as [|m k0 _ r IHr]; intros base b n k n' k' H H'; cbn [roots] in *; [destruct H|]. destruct H as [H|H], H' as [H'|H'].
  - congruence.
  - injection H as -> -> ->. apply roots_trees in H'. lia.
  - injection H' as -> -> ->. apply roots_trees in H. lia.
  - eapply IHr; eassumption.
Qed.
Lemma good_disjoint vaddr f : good_forest vaddr f -> forall base b n k b' n' k', In (b, n, k) (roots base f) -> In (b', n', k') (roots base f) -> b <> b' -> live vaddr (n, k) -> live vaddr (n', k') -> disjoint (ranges n) (ranges n').
Proof.
  assert (LD : forall t, live vaddr t -> dead vaddr t -> False).
  { intros t (A & B & C & D) (_ & [E|((r & E & L) & _)]).
    - destruct (ranges (fst t)) as [|q l]; [congruence|]. inversion C as [|? ? C1 C2]; subst. specialize (E q (or_introl eq_refl)). lia.
    - rewrite Forall_forall in C. specialize (C r E). cbv beta in C. lia. }
  induction f as [|m k0 _ r IHr]; intros G base b n k b' n' k' H H' NE L L'; cbn [roots good_forest] in *; [destruct H|]. destruct G as (G1 & G2). destruct H as [H|H], H' as [H'|H'].
  - congruence.
  - injection H as -> -> ->. destruct G1 as [G1|(_ & G1)]; [destruct (LD _ L G1)|]. apply roots_trees in H'. apply (G1 (n', k')); [apply H'|exact L'].
  - injection H' as -> -> ->. destruct G1 as [G1|(_ & G1)]; [destruct (LD _ L' G1)|]. apply roots_trees in H. apply disjoint_sym. apply (G1 (n, k)); [apply H|exact L].
  - eapply IHr; eassumption.
Qed.
Lemma trees_nodes f n k : In (n, k) (trees f) -> In n (nodes f) /\ incl (nodes k) (nodes f).
Proof.
  induction f as [|m k0 _ r IHr]; cbn [trees nodes]; [intros []|]. intros [H|H].
  - injection H as -> ->. split; [left; reflexivity|]. intros x Hx. right. apply in_or_app. left. exact Hx.
  - destruct (IHr H) as (A & B). split; [right; apply in_or_app; right; exact A|]. intros x Hx. right. apply in_or_app. right. apply B. exact Hx.
Qed.

Section Good.
Context (vaddr : Z) (st : state) (f : forest) (PL : placed st None None O f) (OD : order st = post None O f) (GF : good_forest vaddr f) (SR : Forall (fun n => sorted (ranges n)) (nodes f)).
(** the index [i] belongs to the tree [(b, n, k)] *)
Definition within_tree (b : nat) (k : forest) (i : nat) : Prop := i = b \/ exists m, sits (S b) k i m.
Lemma live_used n k : live vaddr (n, k) -> root_used (n_info n) = true.
Proof.
  intros (_ & NE & FA & _). cbn [fst snd] in *. unfold root_used. unfold ranges in *. destruct (i_ranges (n_info n)) as [|q l]; [congruence|]. inversion FA as [|? ? A B]; subst. cbn [existsb]. destruct (Z.eqb_spec (fst q) 0); [lia|reflexivity].
Qed.
Lemma dead_used n k : dead vaddr (n, k) -> root_used (n_info n) = true -> (exists r, In r (ranges n) /\ fst r < vaddr) /\ Forall (fun m => n_inlined m = true) (nodes k).
Proof.
  intros (_ & [A|A]) U; [|exact A]. exfalso. unfold root_used in U. apply existsb_exists in U. destruct U as (r & Hr & N). cbn [fst] in A. rewrite (A r Hr) in N. discriminate N.
Qed.
Lemma root_obj b n k : In (b, n, k) (roots O f) -> obj b st = sub_of (root_used (n_info n)) None n.
Proof. intros H. apply (placed_roots st f O b n k PL H). Qed.
Lemma node_obj b n k i m : In (b, n, k) (roots O f) -> sits (S b) k i m -> exists u p, obj i st = sub_of u p m.
Proof. intros H S. destruct (placed_roots st f O b n k PL H) as (_ & P). eapply placed_sits; eassumption. Qed.
Lemma order_iff i : In i (order st) <-> exists b n k, In (b, n, k) (roots O f) /\ root_used (n_info n) = true /\ within_tree b k i.
Proof. rewrite OD. apply post_roots. Qed.
Lemma tree_inlined b n k i m : In (b, n, k) (roots O f) -> root_used (n_info n) = true -> sits (S b) k i m -> s_inlined (obj i st) = true.
Proof.
  intros H U S. destruct (node_obj b n k i m H S) as (u & p & ->). cbn [sub_of s_inlined]. apply sits_nodes in S. destruct (roots_trees f O b n k H) as (IT & _). destruct (good_trees vaddr f GF (n, k) IT) as [D|L].
  - destruct (dead_used n k D U) as (_ & F). rewrite Forall_forall in F. apply F. exact S.
  - destruct L as (_ & _ & _ & N). pose proof (nested_nodes _ _ N) as F. rewrite Forall_forall in F. apply F. exact S.
Qed.
(** the entries that are functions *)
Lemma order_function i : In i (order st) -> s_inlined (obj i st) = false -> exists n k, In (i, n, k) (roots O f) /\ root_used (n_info n) = true /\ obj i st = sub_of (root_used (n_info n)) None n.
Proof.
  intros H NI. apply order_iff in H. destruct H as (b & n & k & H & U & [->|(m & S)]).
  - exists n, k. split; [exact H|]. split; [exact U|apply (root_obj b n k H)].
  - rewrite (tree_inlined b n k i m H U S) in NI. discriminate NI.
Qed.
Definition bad1 := rule1 vaddr st [].
Lemma function_live i : In i (order st) -> s_inlined (obj i st) = false -> ~ In i bad1 -> exists n k, In (i, n, k) (roots O f) /\ live vaddr (n, k) /\ obj i st = sub_of (root_used (n_info n)) None n.
Proof.
  intros H NI NB. destruct (order_function i H NI) as (n & k & R & U & E). destruct (roots_trees f O i n k R) as (IT & _). destruct (good_trees vaddr f GF (n, k) IT) as [D|L]; [|exists n, k; auto].
  exfalso. apply NB. apply rule1_iff. right. split; [exact H|]. rewrite E. apply (dead_used n k D U).
Qed.
Lemma live_not_bad1 b n k i : In (b, n, k) (roots O f) -> live vaddr (n, k) -> within_tree b k i -> ~ In i bad1.
Proof.
  intros H L W A. apply rule1_iff in A. destruct A as [[]|(_ & r & Hr & B)]. destruct L as (_ & _ & FA & N). cbn [fst snd] in *. rewrite Forall_forall in FA. destruct W as [->|(m & S)].
  - rewrite (root_obj b n k H) in Hr. specialize (FA r Hr). cbv beta in FA. lia.
  - destruct (node_obj b n k i m H S) as (u & p & E). rewrite E in Hr. cbn [sub_of s_ranges] in Hr. pose proof (nested_nodes _ _ N) as F. rewrite Forall_forall in F. destruct (F m (sits_nodes _ _ _ _ S)) as (_ & _ & WI). destruct (WI r Hr) as (q & Hq & C). specialize (FA q Hq). cbv beta in FA. lia.
Qed.
Definition bad2 := rule2 st (start_addresses st bad1) bad1.
Lemma bad2_eq i : In i bad2 <-> In i bad1.
Proof.
  unfold bad2. rewrite rule2_iff. split; [|tauto]. intros [A|(Oi & NI & r & Hr & SI)]; [exact A|]. destruct (in_dec Nat.eq_dec i bad1) as [A|NB]; [exact A|]. exfalso.
  destruct (function_live i Oi NI NB) as (n & k & R & L & E). apply starts_inside_iff in SI; [|apply starts_sorted]. destruct SI as (y & Hy & B). apply starts_iff in Hy. destruct Hy as (j & q & Oj & NJ & NBj & Hq & ->).
  destruct (function_live j Oj NJ NBj) as (n' & k' & R' & L' & E'). rewrite E in Hr. rewrite E' in Hq. cbn [sub_of s_ranges] in Hr, Hq. change (i_ranges (n_info n)) with (ranges n) in Hr. change (i_ranges (n_info n')) with (ranges n') in Hq.
  assert (LQ : fst q < snd q) by (destruct L' as (_ & _ & FA & _); rewrite Forall_forall in FA; specialize (FA q Hq); cbv beta in FA; lia).
  destruct (Nat.eq_dec i j) as [->|NE].
  - assert (EQ := roots_index f O j n k n' k' R R'). injection EQ as <- <-.
    assert (S : sorted (ranges n)). { rewrite Forall_forall in SR. apply SR. destruct (roots_trees f O j n k R) as (IT & _). exact (proj1 (trees_nodes f n k IT)). }
    clear - S Hr Hq B LQ. induction S as [|x l S IH F]; [destruct Hr|]. rewrite Forall_forall in F. destruct Hr as [->|Hr], Hq as [->|Hq]; [lia|specialize (F q Hq); lia|specialize (F r Hr); lia|apply IH; assumption].
  - destruct (good_disjoint vaddr f GF O i n k j n' k' R R' NE L L' r q Hr Hq); lia.
Qed.
Lemma bad3_eq : rule3 st bad2 = bad2.
Proof.
  apply rule3_id; [rewrite OD; apply post_NoDup|]. intros i j Oi Oj NE NI NJ Bi Bj (r & q & Hr & Hq & E). rewrite bad2_eq in Bi, Bj. destruct (function_live i Oi NI Bi) as (n & k & R & L & EI). destruct (function_live j Oj NJ Bj) as (n' & k' & R' & L' & EJ).
  rewrite EI in Hr. rewrite EJ in Hq. cbn [sub_of s_ranges] in Hr, Hq. pose proof (good_disjoint vaddr f GF O i n k j n' k' R R' NE L L' r q Hr Hq) as D. destruct L as (_ & _ & FA & _), L' as (_ & _ & FA' & _). cbn [fst] in *. rewrite Forall_forall in FA, FA'. specialize (FA r Hr). specialize (FA' q Hq). cbv beta in *. lia.
Qed.
Lemma bad_eq : FindBadSubprograms vaddr st = rule4 st bad2.
Proof. unfold FindBadSubprograms. fold bad1. fold bad2. rewrite bad3_eq. reflexivity. Qed.
Lemma live_kept b n k i : In (b, n, k) (roots O f) -> live vaddr (n, k) -> within_tree b k i -> ~ In i (FindBadSubprograms vaddr st).
Proof.
  intros R L W. rewrite bad_eq. apply (rule4_closed st bad2 (within_tree b k)); [| |exact W].
  - intros j Wj. rewrite bad2_eq. eapply live_not_bad1; eassumption.
  - intros j p Wj EP. destruct (placed_roots st f O b n k PL R) as (E & P). destruct Wj as [->|(m & ST)]; [rewrite E in EP; discriminate EP|]. destruct L as (_ & _ & _ & N). cbn [fst snd] in N.
    destruct (placed_parent st k _ b (S b) (ranges n) P ltac:(rewrite E; reflexivity) N j m ST) as (q & Q1 & Q2 & Q3). assert (q = p) by congruence. subst q. split; [exact Q2|exact Q3].
Qed.
Lemma dead_dropped b n k i : In (b, n, k) (roots O f) -> dead vaddr (n, k) -> root_used (n_info n) = true -> within_tree b k i -> In i (FindBadSubprograms vaddr st).
Proof.
  intros R D U W. assert (B : In b bad2). { apply bad2_eq. apply rule1_iff. right. split; [apply order_iff; exists b, n, k; split; [exact R|split; [exact U|left; reflexivity]]|]. rewrite (root_obj b n k R). apply (dead_used n k D U). }
  rewrite bad_eq. destruct W as [->|(m & ST)]; [apply rule4_mono; exact B|]. rewrite rule4_eq, OD. destruct (post_split f O b n k R U) as (A & B' & ->). rewrite !rev_app_distr, !fold_left_app. cbn [rev app fold_left]. apply mark_mono.
  set (x1 := fold_left _ (rev B') bad2). assert (B1 : In b x1) by (apply mark_mono; exact B). destruct (placed_roots st f O b n k PL R) as (_ & P). eapply rule4_children; [exact P| |exact ST]. destruct (rule4_mark st x1 b); [right; exact B1|exact B1].
Qed.
End Good.
