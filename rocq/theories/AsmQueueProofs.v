(** Invariants of the two queues of candidate merges. *)
From Verif Require Import Base ISort ChainModel ChainBuildModel ChainQueueInvProofs AsmQueueModel AsmQueueSpec.
From Coq Require Import Sorted Permutation.

Lemma order_before_rank a b : order_before a b <-> order_rank a < order_rank b.
Proof.
  split; [destruct 1; cbn; lia|]. destruct a, b; cbn [order_rank]; intros; try lia; constructor.
Qed.
Lemma order_rank_inj a b : order_rank a = order_rank b -> a = b.
Proof. destruct a, b; cbn; intros; try reflexivity; lia. Qed.
Lemma pos_before_ltb a b : pos_ltb a b = true <-> pos_before a b.
Proof.
  destruct a as [x|], b as [y|]; cbn [pos_ltb]; split; intros H; try discriminate; try (inversion H; subst; clear H); try (constructor; lia); try reflexivity; lia.
Qed.
Lemma asm_ltb_worse a b : asm_ltb a b = true <-> worse a b.
Proof.
  unfold asm_ltb, worse. repeat (rewrite Bool.orb_true_iff || rewrite Bool.andb_true_iff). rewrite !Z.ltb_lt, !Z.eqb_eq, pos_before_ltb, order_before_rank.
  assert (R : order_rank (a_order a) = order_rank (a_order b) <-> a_order a = a_order b) by (split; [apply order_rank_inj|congruence]).
  rewrite R. reflexivity.
Qed.
Lemma pos_before_trans a b c : pos_before a b -> pos_before b c -> pos_before a c.
Proof. intros P Q. destruct P; inversion Q; subst; constructor; lia. Qed.
Lemma pos_before_irrefl a : ~ pos_before a a.
Proof. intros P. inversion P; subst; lia. Qed.
Lemma worse_trans a b c : worse a b -> worse b c -> worse a c.
Proof.
  unfold worse. rewrite !order_before_rank. intros P Q.
  destruct P as [P|[P1 [P|[P2 [P|[P3 [P|[P4 P]]]]]]]]; destruct Q as [Q|[Q1 [Q|[Q2 [Q|[Q3 [Q|[Q4 Q]]]]]]]]; try (left; lia);
    right; (split; [lia|]); try (left; lia); right; (split; [lia|]); try (left; lia); right; (split; [lia|]);
    try rewrite P4 in *; try rewrite <- Q4 in *; try (left; lia).
  right. split; [reflexivity|]. exact (pos_before_trans _ _ _ P Q).
Qed.
Lemma worse_irrefl a : ~ worse a a.
Proof. unfold worse. rewrite order_before_rank. intros [P|[_ [P|[_ [P|[_ [P|[_ P]]]]]]]]; try lia. exact (pos_before_irrefl _ P). Qed.
Lemma worse_total a b : a_pair a <> a_pair b -> worse a b \/ worse b a.
Proof.
  unfold a_pair. intros P. assert (D : a_split a <> a_split b \/ a_unsplit a <> a_unsplit b) by (destruct (Z.eq_dec (a_split a) (a_split b)) as [Q|Q]; [right; congruence|left; exact Q]).
  unfold worse. generalize (order_before (a_order a) (a_order b) \/ a_order a = a_order b /\ pos_before (a_pos a) (a_pos b)), (order_before (a_order b) (a_order a) \/ a_order b = a_order a /\ pos_before (a_pos b) (a_pos a)). intros. lia.
Qed.

Lemma live_snoc ops o a : live (ops ++ [o]) a <-> o = QInsert a \/ live ops a /\ ~ touches o (a_split a) (a_unsplit a).
Proof.
  split.
  - intros (bf & af & E & F). destruct (exists_last (l := QInsert a :: af)) as (l & x & X); [discriminate|].
    rewrite X, app_assoc in E. apply app_inj_tail in E as [E1 E2]. subst x. destruct l as [|y l]; injection X as X1 X2.
    + left. congruence.
    + right. subst y af. split; [|apply F; apply in_or_app; right; left; reflexivity]. exists bf, l. split; [exact E1|]. intros z Hz. apply F. apply in_or_app. left. exact Hz.
  - intros [E|[(bf & af & E & F) N]].
    + subst o. exists ops, []. split; [reflexivity|]. intros z [].
    + subst ops. exists bf, (af ++ [o]). split; [rewrite <- app_assoc; reflexivity|]. intros z Hz. apply in_app_or in Hz as [Hz|[Hz|[]]]; [exact (F z Hz)|subst z; exact N].
Qed.
Lemma live_nil a : ~ live [] a.
Proof. intros (bf & af & E & _). destruct bf; discriminate. Qed.
Lemma touches_insert a b : touches (QInsert b) (a_split a) (a_unsplit a) <-> a_pair b = a_pair a.
Proof. unfold touches, a_pair. split; [intros [? ?]; congruence|intros E; injection E as E1 E2; auto]. Qed.
Lemma touches_remove a p : touches (QRemove p) (a_split a) (a_unsplit a) <-> p = a_pair a.
Proof. reflexivity. Qed.

(** * The set *)
Definition node_lt (x y : nat * assembly) : Prop := worse (snd x) (snd y).

Lemma set_erase_spec n l : NoDup (map fst l) -> In n (map fst l) -> StronglySorted node_lt l ->
  exists l', set_erase n l = Some l' /\ NoDup (map fst l') /\ StronglySorted node_lt l' /\ forall x, In x l' <-> In x l /\ fst x <> n.
Proof.
  induction l as [|[i b] t IH]; cbn [map In set_erase fst]; [intros _ []|]. intros ND HI SS. inversion ND as [|? ? N1 N2]; subst. inversion SS as [|? ? S1 S2]; subst.
  destruct (Nat.eqb_spec i n) as [Q|Q].
  - subst i. exists t. split; [reflexivity|]. split; [exact N2|]. split; [exact S1|]. intros x. split.
    + intros Hx. split; [right; exact Hx|]. intros E. apply N1. rewrite <- E. apply in_map. exact Hx.
    + intros [[E|Hx] F]; [subst x; cbn in F; congruence|exact Hx].
  - destruct HI as [E|HI]; [congruence|]. destruct (IH N2 HI S1) as (l' & E & ND' & SS' & M). rewrite E. exists ((i, b) :: l'). split; [reflexivity|].
    split; [cbn [map fst]; constructor; [|exact ND']; intros K; apply in_map_iff in K as (x & X1 & X2); apply M in X2 as [X2 _]; apply N1; rewrite <- X1; apply in_map; exact X2|].
    split; [constructor; [exact SS'|]; apply Forall_forall; intros x Hx; apply M in Hx as [Hx _]; rewrite Forall_forall in S2; exact (S2 x Hx)|].
    intros x. cbn [In]. rewrite M. split; [intros [E2|[H1 H2]]; [subst x; split; [left; reflexivity|exact Q]|split; [right; exact H1|exact H2]]|intros [[E2|H1] H2]; [left; exact E2|right; split; assumption]].
Qed.
Lemma set_insert_spec n a l : (forall x, In x l -> a_pair (snd x) <> a_pair a) -> StronglySorted node_lt l ->
  exists l', set_insert n a l = (l', n) /\ StronglySorted node_lt l' /\ Permutation l' ((n, a) :: l).
Proof.
  induction l as [|[i b] t IH]; cbn [set_insert]; intros D SS.
  - exists [(n, a)]. split; [reflexivity|]. split; [repeat constructor|reflexivity].
  - inversion SS as [|? ? S1 S2]; subst. destruct (asm_ltb b a) eqn:B.
    + apply asm_ltb_worse in B. destruct IH as (l' & E & SS' & P); [intros x Hx; apply D; right; exact Hx|exact S1|]. rewrite E. exists ((i, b) :: l'). split; [reflexivity|]. split.
      * constructor; [exact SS'|]. apply Forall_forall. intros x Hx. apply (Permutation_in _ P) in Hx as [Hx|Hx]; [subst x; exact B|]. rewrite Forall_forall in S2. exact (S2 x Hx).
      * rewrite P. apply perm_swap.
    + destruct (asm_ltb a b) eqn:A.
      * apply asm_ltb_worse in A. exists ((n, a) :: (i, b) :: t). split; [reflexivity|]. split; [|reflexivity]. constructor; [exact SS|]. constructor; [exact A|].
        apply Forall_forall. intros x Hx. rewrite Forall_forall in S2. exact (worse_trans _ _ _ A (S2 x Hx)).
      * exfalso. destruct (worse_total b a) as [W|W]; [apply (D (i, b)); left; reflexivity| |]; apply asm_ltb_worse in W; congruence.
Qed.
Lemma set_last_spec l : StronglySorted node_lt l ->
  match set_last l with
  | None => l = []
  | Some b => (exists i, In (i, b) l) /\ forall x, In x l -> snd x = b \/ worse (snd x) b
  end.
Proof.
  induction l as [|[i b] t IH]; intros SS; [reflexivity|]. inversion SS as [|? ? S1 S2]; subst. specialize (IH S1). destruct t as [|[j c] t].
  - cbn [set_last]. split; [exists i; left; reflexivity|]. intros x [E|[]]. subst x. left. reflexivity.
  - change (set_last ((i, b) :: (j, c) :: t)) with (set_last ((j, c) :: t)). destruct (set_last ((j, c) :: t)) as [d|]; [|discriminate IH].
    destruct IH as [[k K] M]. split; [exists k; right; exact K|]. intros x [E|Hx]; [subst x; right|exact (M x Hx)]. rewrite Forall_forall in S2. exact (S2 _ K).
Qed.

(** * The tree queue *)
Record tinv (ops : list qop) (q : tqueue) : Prop := {
  ti_sorted : StronglySorted node_lt (tq_items q);
  ti_nodup : NoDup (map fst (tq_items q));
  ti_fresh : forall x, In x (tq_items q) -> (fst x < tq_next q)%nat;
  ti_handles : forall p i, aget pair_eqb p (tq_handles q) = Some i <-> exists a, In (i, a) (tq_items q) /\ a_pair a = p;
  ti_live : forall a, (exists i, In (i, a) (tq_items q)) <-> live ops a }.

Lemma tinv0 : tinv [] tq0.
Proof.
  split; cbn; try constructor; try easy.
  - intros (a & [] & _).
  - intros [i []].
  - intros L. exfalso. exact (live_nil _ L).
Qed.
Lemma tinv_fst_inj ops q i a b : tinv ops q -> In (i, a) (tq_items q) -> In (i, b) (tq_items q) -> a = b.
Proof.
  intros T. generalize (ti_nodup _ _ T). generalize (tq_items q). intros l ND. induction l as [|[j c] l IH]; [intros []|]. inversion ND as [|? ? N1 N2]; subst.
  intros [E|H] [F|K]; [congruence| | |exact (IH N2 H K)]; exfalso; apply N1; [injection E as -> _; exact (in_map fst _ _ K)|injection F as -> _; exact (in_map fst _ _ H)].
Qed.
Lemma tinv_pair_inj ops q a b i j : tinv ops q -> In (i, a) (tq_items q) -> In (j, b) (tq_items q) -> a_pair a = a_pair b -> i = j.
Proof.
  intros T A B E. assert (X : aget pair_eqb (a_pair a) (tq_handles q) = Some i) by (apply (ti_handles _ _ T); exists a; auto).
  assert (Y : aget pair_eqb (a_pair a) (tq_handles q) = Some j) by (apply (ti_handles _ _ T); exists b; auto). congruence.
Qed.

(** Dropping the node of a pair, if there is one. *)
Lemma drop_spec ops q p : tinv ops q ->
  exists l, (match aget pair_eqb p (tq_handles q) with None => Some (tq_items q) | Some i => set_erase i (tq_items q) end) = Some l /\
    NoDup (map fst l) /\ StronglySorted node_lt l /\ forall x, In x l <-> In x (tq_items q) /\ a_pair (snd x) <> p.
Proof.
  intros T. destruct (aget pair_eqb p (tq_handles q)) as [i|] eqn:G.
  - apply (ti_handles _ _ T) in G as (a & HA & E). destruct (set_erase_spec i (tq_items q)) as (l & L & ND & SS & M); [exact (ti_nodup _ _ T)|exact (in_map fst _ _ HA)|exact (ti_sorted _ _ T)|].
    exists l. split; [exact L|]. split; [exact ND|]. split; [exact SS|]. intros [j b]. rewrite M. cbn [fst snd]. split; intros [H K]; (split; [exact H|]); intros F; apply K.
    + rewrite <- E in F. exact (tinv_pair_inj _ _ _ _ _ _ T H HA F).
    + subst j. rewrite (tinv_fst_inj _ _ _ _ _ T H HA). exact E.
  - exists (tq_items q). split; [reflexivity|]. split; [exact (ti_nodup _ _ T)|]. split; [exact (ti_sorted _ _ T)|]. intros [j b]. cbn [snd]. split; [|tauto]. intros H. split; [exact H|]. intros F.
    assert (X : aget pair_eqb p (tq_handles q) = Some j) by (apply (ti_handles _ _ T); exists b; auto). congruence.
Qed.

Lemma aget_rm_any {V} k k2 (q : list ((Z * Z) * V)) : aget pair_eqb k2 (aremove pair_eqb k q) = if pair_eqb k2 k then None else aget pair_eqb k2 q.
Proof.
  induction q as [|[k' v] q IH]; cbn [aremove aget]; [destruct (pair_eqb k2 k); reflexivity|].
  destruct (pair_reflect k k') as [Q|Q].
  - rewrite IH. destruct (pair_reflect k2 k) as [Q2|Q2]; [reflexivity|]. destruct (pair_reflect k2 k'); [congruence|reflexivity].
  - cbn [aget]. rewrite IH. destruct (pair_reflect k2 k'), (pair_reflect k2 k); try reflexivity; congruence.
Qed.

Lemma tinv_step ops q o : tinv ops q -> exists q', tq_step o q = Some q' /\ tinv (ops ++ [o]) q'.
Proof.
  intros T. destruct o as [a|p]; cbn [tq_step].
  - unfold tq_insert. destruct (drop_spec _ _ (a_pair a) T) as (l & -> & ND & SS & M).
    destruct (set_insert_spec (tq_next q) a l) as (l' & -> & SS' & P); [intros x Hx; apply M in Hx as [_ Hx]; exact Hx|exact SS|].
    assert (IN : forall x, In x l' <-> x = (tq_next q, a) \/ In x (tq_items q) /\ a_pair (snd x) <> a_pair a).
    { intros x. rewrite <- M. split; intros H; [apply (Permutation_in _ P) in H as [H|H]; [left; congruence|right; exact H]|].
      apply (Permutation_in _ (Permutation_sym P)). destruct H as [H|H]; [left; congruence|right; exact H]. }
    eexists. split; [reflexivity|]. split; cbn [tq_items tq_handles tq_next].
    + exact SS'.
    + apply (Permutation_NoDup (Permutation_sym (Permutation_map fst P))). cbn [map fst]. constructor; [|exact ND]. intros H. apply in_map_iff in H as (x & X1 & X2). apply M in X2 as [X2 _]. apply (ti_fresh _ _ T) in X2. lia.
    + intros x Hx. apply IN in Hx as [Hx|[Hx _]]; [subst x; cbn [fst]; lia|]. apply (ti_fresh _ _ T) in Hx. lia.
    + intros p i. rewrite (aget_aset pair_eqb pair_reflect). destruct (pair_reflect p (a_pair a)) as [E|E].
      * subst p. split; [intros X; injection X as <-; exists a; split; [apply IN; left; reflexivity|reflexivity]|]. intros (b & B1 & B2). apply IN in B1 as [B1|[_ B1]]; [congruence|cbn [snd] in B1; congruence].
      * rewrite (ti_handles _ _ T). split; intros (b & B1 & B2); exists b; (split; [|exact B2]); [apply IN; right; split; [exact B1|cbn [snd]; congruence]|apply IN in B1 as [B1|[B1 _]]; [congruence|exact B1]].
    + intros b. rewrite live_snoc, touches_insert, <- (ti_live _ _ T). split.
      * intros [i Hi]. apply IN in Hi as [Hi|[Hi N]]; [left; congruence|right]. split; [exists i; exact Hi|]. cbn [snd] in N. congruence.
      * intros [E|[[i Hi] N]]; [exists (tq_next q); apply IN; left; congruence|exists i; apply IN; right; split; [exact Hi|cbn [snd]; congruence]].
  - unfold tq_remove. destruct (drop_spec _ _ p T) as (l & L & ND & SS & M). destruct (aget pair_eqb p (tq_handles q)) as [i|] eqn:G.
    + rewrite L. eexists. split; [reflexivity|]. split; cbn [tq_items tq_handles tq_next].
      * exact SS.
      * exact ND.
      * intros x Hx. apply M in Hx as [Hx _]. exact (ti_fresh _ _ T x Hx).
      * intros p2 j. rewrite aget_rm_any. destruct (pair_reflect p2 p) as [E|E].
        -- subst p2. split; [discriminate|]. intros (b & B1 & B2). apply M in B1 as [_ B1]. cbn [snd] in B1. congruence.
        -- rewrite (ti_handles _ _ T). split; intros (b & B1 & B2); exists b; (split; [|exact B2]); [apply M; split; [exact B1|cbn [snd]; congruence]|apply M in B1 as [B1 _]; exact B1].
      * intros b. rewrite live_snoc, touches_remove, <- (ti_live _ _ T). split.
        -- intros [j Hj]. apply M in Hj as [Hj N]. cbn [snd] in N. right. split; [exists j; exact Hj|congruence].
        -- intros [E|[[j Hj] N]]; [discriminate|]. exists j. apply M. split; [exact Hj|cbn [snd]; congruence].
    + exists q. split; [reflexivity|]. split; try apply T. intros b. rewrite live_snoc, touches_remove, <- (ti_live _ _ T). split.
      * intros [j Hj]. right. split; [exists j; exact Hj|]. intros E. assert (X : aget pair_eqb p (tq_handles q) = Some j) by (apply (ti_handles _ _ T); exists b; auto). congruence.
      * intros [E|[Hj N]]; [discriminate|exact Hj].
Qed.
Lemma tinv_run ops2 : forall ops q, tinv ops q -> exists q', tq_run ops2 q = Some q' /\ tinv (ops ++ ops2) q'.
Proof.
  induction ops2 as [|o ops2 IH]; intros ops q T; cbn [tq_run].
  - exists q. rewrite app_nil_r. auto.
  - destruct (tinv_step _ _ o T) as (q1 & -> & T1). destruct (IH _ _ T1) as (q2 & E & T2). exists q2. rewrite <- app_assoc in T2. auto.
Qed.

(** * The iterative queue *)
Record iinv (ops : list qop) (q : queue) : Prop := {
  ii_nodup : NoDup (akeys q);
  ii_key : forall p a, In (p, a) q -> p = a_pair a;
  ii_live : forall a, (exists p, In (p, a) q) <-> live ops a }.
Lemma In_aremove {V} k (q : list ((Z * Z) * V)) x : In x (aremove pair_eqb k q) <-> In x q /\ fst x <> k.
Proof.
  induction q as [|[k' v] q IH]; cbn [aremove In]; [tauto|]. destruct (pair_reflect k k') as [Q|Q]; cbn [In]; rewrite IH; clear IH; split.
  - tauto.
  - intros [[E|H] N]; [subst x; cbn in N; congruence|auto].
  - intros [E|[H N]]; [subst x; cbn [fst]; split; [left; reflexivity|congruence]|tauto].
  - tauto.
Qed.
Lemma NoDup_aremove {V} k (q : list ((Z * Z) * V)) : NoDup (akeys q) -> NoDup (akeys (aremove pair_eqb k q)).
Proof.
  induction q as [|[k' v] q IH]; cbn [aremove akeys map fst]; [auto|]. intros ND. inversion ND as [|? ? N1 N2]; subst. destruct (pair_reflect k k') as [Q|Q]; [exact (IH N2)|].
  cbn [map fst]. constructor; [|exact (IH N2)]. intros H. apply in_map_iff in H as (x & X1 & X2). apply In_aremove in X2 as [X2 _]. apply N1. rewrite <- X1. exact (in_map fst _ _ X2).
Qed.
Lemma In_aset_nodup {V} k (v : V) q x : NoDup (akeys q) -> In x (aset pair_eqb k v q) <-> x = (k, v) \/ In x q /\ fst x <> k.
Proof.
  intros ND. pose proof (NoDup_akeys_aset pair_eqb pair_reflect k v _ ND) as ND'. destruct x as [k2 w]. cbn [fst]. split.
  - intros H. apply (aget_NoDup_In pair_eqb pair_reflect _ _ _ ND') in H. rewrite (aget_aset pair_eqb pair_reflect) in H. destruct (pair_reflect k2 k) as [E|E]; [left; congruence|right]. split; [|exact E]. exact (aget_In pair_eqb pair_reflect _ _ _ H).
  - intros H. apply (aget_In pair_eqb pair_reflect). rewrite (aget_aset pair_eqb pair_reflect). destruct H as [H|[H N]].
    + injection H as -> ->. destruct (pair_reflect k k); [reflexivity|congruence].
    + destruct (pair_reflect k2 k); [congruence|]. exact (aget_NoDup_In pair_eqb pair_reflect _ _ _ ND H).
Qed.
Lemma iinv_step ops q o : iinv ops q -> iinv (ops ++ [o]) (iq_step q o).
Proof.
  intros [ND K L]. destruct o as [a|p]; cbn [iq_step]; split.
  - exact (NoDup_akeys_aset pair_eqb pair_reflect _ _ _ ND).
  - intros p b H. apply (In_aset_nodup _ _ _ _ ND) in H as [H|[H _]]; [congruence|exact (K _ _ H)].
  - intros b. rewrite live_snoc, touches_insert, <- L. split.
    + intros [p H]. apply (In_aset_nodup _ _ _ _ ND) in H as [H|[H N]]; [left; congruence|right]. cbn [fst] in N. pose proof (K _ _ H). split; [exists p; exact H|congruence].
    + intros [E|[[p H] N]]; [exists (a_pair a); apply (In_aset_nodup _ _ _ _ ND); left; congruence|]. exists p. apply (In_aset_nodup _ _ _ _ ND). right. split; [exact H|]. cbn [fst]. pose proof (K _ _ H). congruence.
  - exact (NoDup_aremove _ _ ND).
  - intros p2 b H. apply In_aremove in H as [H _]. exact (K _ _ H).
  - intros b. rewrite live_snoc, touches_remove, <- L. split.
    + intros [p2 H]. apply In_aremove in H as [H N]. cbn [fst] in N. pose proof (K _ _ H). right. split; [exists p2; exact H|congruence].
    + intros [E|[[p2 H] N]]; [discriminate|]. exists p2. apply In_aremove. split; [exact H|]. cbn [fst]. pose proof (K _ _ H). congruence.
Qed.
Lemma iinv_run ops2 : forall ops q, iinv ops q -> iinv (ops ++ ops2) (fold_left iq_step ops2 q).
Proof.
  induction ops2 as [|o ops2 IH]; intros ops q T; cbn [fold_left]; [rewrite app_nil_r; exact T|]. apply (iinv_step _ _ o) in T. apply IH in T. rewrite <- app_assoc in T. exact T.
Qed.
Lemma iinv0 : iinv [] [].
Proof. split; [constructor|intros p a []|]. intros a. split; [intros [p []]|intros L; exfalso; exact (live_nil _ L)]. Qed.

(** c_max_element on elements of which no two are equivalent. *)
Lemma best_of_max (q : queue) : (forall x y, In x q -> In y q -> snd x = snd y \/ worse (snd x) (snd y) \/ worse (snd y) (snd x)) ->
  match best_of q with
  | None => q = []
  | Some b => (exists p, In (p, b) q) /\ forall x, In x q -> snd x = b \/ worse (snd x) b
  end.
Proof.
  unfold best_of. set (f := fun (acc : option assembly) (ka : Z * Z * assembly) => _). intros T.
  assert (X : forall l acc, (forall x y, In x l -> In y l -> snd x = snd y \/ worse (snd x) (snd y) \/ worse (snd y) (snd x)) ->
      (match acc with None => True | Some b => forall x, In x l -> snd x = b \/ worse (snd x) b \/ worse b (snd x) end) ->
      match fold_left f l acc with
      | None => l = [] /\ acc = None
      | Some b => (acc = Some b \/ exists p, In (p, b) l) /\ (forall x, In x l -> snd x = b \/ worse (snd x) b) /\ (forall c, acc = Some c -> c = b \/ worse c b)
      end).
  { induction l as [|x l IH]; intros acc TL TA; cbn [fold_left].
    - destruct acc as [b|]; [|auto]. split; [left; reflexivity|]. split; [intros x []|]. intros c E. left. congruence.
    - assert (G : exists c, f acc x = Some c /\ (acc = Some c \/ c = snd x) /\ (snd x = c \/ worse (snd x) c) /\ (forall d, acc = Some d -> d = c \/ worse d c)).
      { unfold f. destruct acc as [b|]; [|exists (snd x); split; [reflexivity|]; split; [right; reflexivity|]; split; [left; reflexivity|discriminate]].
        destruct (asm_ltb b (snd x)) eqn:B.
        - apply asm_ltb_worse in B. exists (snd x). split; [reflexivity|]. split; [right; reflexivity|]. split; [left; reflexivity|]. intros d E. right. congruence.
        - exists b. split; [reflexivity|]. split; [left; reflexivity|]. split; [|intros d E; left; congruence]. destruct (TA x (or_introl eq_refl)) as [E|[W|W]]; [auto|auto|]. apply asm_ltb_worse in W. congruence. }
      destruct G as (c & GE & G1 & G2 & G3). rewrite GE. specialize (IH (Some c)). destruct (fold_left f l (Some c)) as [b|]; destruct IH as [I1 I2].
      + intros y z Hy Hz. apply TL; right; assumption.
      + intros y Hy. destruct G1 as [G1|G1]; [rewrite G1 in TA; apply TA; right; exact Hy|]. subst c. apply TL; [right; exact Hy|left; reflexivity].
      + destruct I2 as [I2 I3]. split; [|split].
        * destruct I1 as [I1|[p I1]]; [|right; exists p; right; exact I1]. injection I1 as ->. destruct G1 as [G1|G1]; [left; exact G1|]. right. exists (fst x). left. subst b. destruct x; reflexivity.
        * intros y [E|Hy]; [subst y|exact (I2 y Hy)]. destruct (I3 c eq_refl) as [E|W]; destruct G2 as [E2|W2]; [left; congruence|right; congruence|right; congruence|right; exact (worse_trans _ _ _ W2 W)].
        * intros d E. destruct (I3 c eq_refl) as [E1|W]; destruct (G3 d E) as [E2|W2]; [left; congruence|right; congruence|right; congruence|right; exact (worse_trans _ _ _ W2 W)].
      + intros y z Hy Hz. apply TL; right; assumption.
      + intros y Hy. destruct G1 as [G1|G1]; [rewrite G1 in TA; apply TA; right; exact Hy|]. subst c. apply TL; [right; exact Hy|left; reflexivity].
      + discriminate I2. }
  specialize (X q None T I). destruct (fold_left f q None) as [b|]; [|tauto]. destruct X as ([X|X] & Y & _); [discriminate|]. split; assumption.
Qed.
