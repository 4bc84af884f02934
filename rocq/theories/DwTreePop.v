(** What PopulateSubprogramsByAddress stores. *)
From Coq Require Import Sorted Permutation.
From Verif Require Import Base ISort RangeMapModel RangeMapProofs DwLineModel DwTreeModel DwTreeSpec DwTreeWalk DwTreeBad DwTreeMap DwTreeGood.

Fixpoint inner (base : nat) (f : forest) (a : Z) : option nat :=
  match f with
  | FNil => None
  | FCons n k r => if cov (ranges n) a then match inner (S base) k a with Some i => Some i | None => Some base end else inner (S base + size k) r a
  end.
Lemma cov_covers n a : cov (ranges n) a = true <-> covers a n.
Proof.
  unfold cov. rewrite existsb_exists. unfold covers. split; intros (r & H & B); exists r; (split; [exact H|]).
  - apply andb_true_iff in B. rewrite Z.leb_le, Z.ltb_lt in B. exact B.
  - apply andb_true_iff. rewrite Z.leb_le, Z.ltb_lt. exact B.
Qed.
Lemma cov_within a b x : within a b -> cov a x = true -> cov b x = true.
Proof.
  unfold cov. rewrite !existsb_exists. intros W (r & H & B). apply andb_true_iff in B. rewrite Z.leb_le, Z.ltb_lt in B. destruct (W r H) as (q & Hq & C). exists q. split; [exact Hq|]. apply andb_true_iff. rewrite Z.leb_le, Z.ltb_lt. lia.
Qed.
Lemma inner_outer k : forall base outer a i, nested outer k -> inner base k a = Some i -> cov outer a = true.
Proof.
  induction k as [|n k _ r IHr]; intros base outer a i N H; cbn [inner nested] in *; [discriminate H|]. destruct N as (A & B & C & D & E & F). destruct (cov (ranges n) a) eqn:EC; [apply (cov_within _ _ _ C EC)|eapply IHr; eassumption].
Qed.
Lemma sorted_apart (l : list (Z * Z)) q q' : sorted l -> In q l -> In q' l -> q <> q' -> apart q q'.
Proof.
  induction 1 as [|x l S IH F]; intros H H' NE; [destruct H|]. rewrite Forall_forall in F. destruct H as [->|H], H' as [->|H']; [congruence|left; apply F; exact H'|right; apply F; exact H|apply IH; assumption].
Qed.
Lemma pair_eq_dec (a b : Z * Z) : {a = b} + {a <> b}. Proof. decide equality; apply Z.eq_dec. Qed.
Lemma insert_all_app st bad a b m : insert_all st bad (a ++ b) m = let! m := insert_all st bad a m in insert_all st bad b m.
Proof.
  revert m. induction a as [|x a IH]; intros m; cbn [app insert_all obind]; [reflexivity|]. destruct (mem x bad); [apply IH|]. destruct (InsertRangeList m (s_ranges (obj x st)) x); cbn [obind]; [apply IH|reflexivity|reflexivity].
Qed.
Lemma insert_all_skip st bad l m : incl l bad -> insert_all st bad l m = Ok m.
Proof. induction l as [|x l IH]; intros H; cbn [insert_all]; [reflexivity|]. assert (M : mem x bad = true) by (apply mem_In, H; left; reflexivity). rewrite M. apply IH. intros y Hy. apply H. right. exact Hy. Qed.
(** one entry around what it contains *)
Lemma insert_entry st bad base n k u p done m : obj base st = sub_of u p n -> ~ In base bad -> sorted (ranges n) -> Forall (fun q => 0 <= fst q < snd q) (ranges n) -> stored done m ->
  (forall r q, In r done -> In q (ranges n) -> apart r q \/ exists c, In c (nodes k) /\ In r (ranges c)) -> Forall (fun c => within (ranges c) (ranges n)) (nodes k) ->
  exists m', insert_all st bad [base] m = Ok m' /\ stored (done ++ ranges n) m' /\ forall a, val m' a = match val m a with Some x => Some x | None => if cov (ranges n) a then Some base else None end.
Proof.
  intros E NB SO FA ST AP WI. cbn [insert_all]. apply mem_not_In in NB. rewrite NB, E. cbn [sub_of s_ranges]. change (i_ranges (n_info n)) with (ranges n). destruct (insert_list (ranges n) done m base ST SO FA) as (m' & E' & ST' & V).
  - intros r q Hr Hq. destruct (AP r q Hr Hq) as [A|(c & Hc & Hr')]; [left; exact A|]. rewrite Forall_forall in WI. destruct (WI c Hc r Hr') as (q1 & Hq1 & C). destruct (pair_eq_dec q1 q) as [->|NE]; [right; exact C|]. left. pose proof (sorted_apart _ _ _ SO Hq1 Hq NE) as A. unfold apart in *. rewrite Forall_forall in FA. pose proof (FA q Hq). pose proof (FA q1 Hq1). cbv beta in *. lia.
  - rewrite E'. cbn [obind]. exists m'. auto.
Qed.
Lemma tops_nodes k : forall c, In c (tops k) -> In c (nodes k).
Proof. induction k as [|c k _ r IHr]; cbn [tops nodes]; intros x H; [destruct H|]. destruct H as [<-|H]; [left; reflexivity|right; apply in_or_app; right; apply IHr; exact H]. Qed.
Lemma insert_nested st bad k : forall ou p base outer done m, placed st ou p base k -> nested outer k -> (forall q, In q outer -> 0 <= fst q) -> Forall (fun n => sorted (ranges n)) (nodes k) -> (forall i n, sits base k i n -> ~ In i bad) ->
  stored done m -> (forall r n q, In r done -> In n (tops k) -> In q (ranges n) -> apart r q) ->
  exists m' done', insert_all st bad (post (Some true) base k) m = Ok m' /\ stored done' m' /\ (forall r, In r done' -> In r done \/ exists n, In n (nodes k) /\ In r (ranges n)) /\
    forall a, val m' a = match val m a with Some x => Some x | None => inner base k a end.
Proof.
  induction k as [|n k IHk r IHr]; intros ou p base outer done m P N NN SO NB ST AP; cbn [post used_of placed nested nodes tops sits inner] in *.
  - exists m, done. cbn [insert_all]. split; [reflexivity|]. split; [exact ST|]. split; [tauto|]. intros a. destruct (val m a); reflexivity.
  - destruct P as (P1 & P2 & P3). destruct N as (A & B & C & D & E & F). inversion SO as [|? ? SO1 SO2]; subst. apply Forall_app in SO2. destruct SO2 as (SO2 & SO3).
    assert (NN' : forall q, In q (ranges n) -> 0 <= fst q). { intros q Hq. destruct (C q Hq) as (o & Ho & L). specialize (NN o Ho). lia. }
    assert (NW := nested_nodes _ _ D). assert (WI : Forall (fun c => within (ranges c) (ranges n)) (nodes k)) by (eapply Forall_impl; [|exact NW]; cbv beta; tauto).
    assert (TW := tops_nodes k).
    rewrite !insert_all_app.
    destruct (IHk (Some (used_of ou n)) (Some base) (S base) (ranges n) done m P2 D NN' SO2) as (m1 & d1 & E1 & ST1 & I1 & V1); [intros i c Hc; apply (NB i c); tauto|exact ST| |].
    { intros x c q Hx Hc Hq. rewrite Forall_forall in WI. destruct (WI c (TW c Hc) q Hq) as (o & Ho & L). specialize (AP x n o Hx (or_introl eq_refl) Ho). unfold apart in *. lia. }
    rewrite E1. cbn [obind].
    destruct (insert_entry st bad base n k (used_of ou n) p d1 m1 P1) as (m2 & E2 & ST2 & V2); [apply (NB base n); tauto|exact SO1| |exact ST1| |exact WI|].
    { rewrite Forall_forall. intros q Hq. split; [apply NN'; exact Hq|apply B; exact Hq]. }
    { intros x q Hx Hq. destruct (I1 x Hx) as [G|G]; [left; apply (AP x n q G); [left; reflexivity|exact Hq]|right; exact G]. }
    rewrite insert_all_app, E2. cbn [obind].
    destruct (IHr ou p (S base + size k)%nat outer (d1 ++ ranges n) m2 P3 F NN SO3) as (m3 & d3 & E3 & ST3 & I3 & V3); [intros i c Hc; apply (NB i c); tauto|exact ST2| |].
    { intros x c q Hx Hc Hq. apply in_app_or in Hx. rewrite Forall_forall in E. destruct Hx as [Hx|Hx].
      - destruct (I1 x Hx) as [G|(c' & Hc' & Hx')]; [apply (AP x c q G); [right; exact Hc|exact Hq]|]. rewrite Forall_forall in WI. destruct (WI c' Hc' x Hx') as (o & Ho & L). destruct (E c Hc o q Ho Hq); unfold apart; lia.
      - destruct (E c Hc x q Hx Hq); unfold apart; lia. }
    exists m3, d3. split; [exact E3|]. split; [exact ST3|]. split.
    + intros x Hx. destruct (I3 x Hx) as [G|(c & Hc & Hx')]; [|right; exists c; split; [right; apply in_or_app; right; exact Hc|exact Hx']]. apply in_app_or in G. destruct G as [G|G]; [|right; exists n; split; [left; reflexivity|exact G]]. destruct (I1 x G) as [G1|(c & Hc & Hx')]; [left; exact G1|right; exists c; split; [right; apply in_or_app; left; exact Hc|exact Hx']].
    + intros a. rewrite V3, V2, V1. destruct (val m a); [reflexivity|]. destruct (inner (S base) k a) as [i|] eqn:EI; [rewrite (inner_outer k _ _ _ _ D EI); reflexivity|]. destruct (cov (ranges n) a); reflexivity.
Qed.

(** the functions *)
Section Top.
Context (vaddr : Z).
Definition islive (n : node) : bool := (match ranges n with [] => false | _ => true end) && forallb (fun r => (vaddr <=? fst r) && negb (fst r =? 0)) (ranges n).
Lemma islive_live n k : live vaddr (n, k) -> islive n = true.
Proof.
  intros (_ & NE & FA & _). cbn [fst] in *. unfold islive. destruct (ranges n) as [|r l]; [congruence|]. rewrite andb_true_l. apply forallb_forall. intros q Hq. rewrite Forall_forall in FA. specialize (FA q Hq). cbv beta in FA. destruct (Z.leb_spec vaddr (fst q)), (Z.eqb_spec (fst q) 0); cbn; try reflexivity; lia.
Qed.
Lemma islive_dead n k : dead vaddr (n, k) -> islive n = false.
Proof.
  intros (_ & [A|((r & Hr & L) & _)]); cbn [fst] in *; unfold islive.
  - destruct (ranges n) as [|r l]; [reflexivity|]. rewrite andb_true_l. cbn [forallb]. rewrite (A r (or_introl eq_refl)). cbn. rewrite andb_false_r. reflexivity.
  - destruct (ranges n) as [|r' l]; [destruct Hr|]. rewrite andb_true_l. apply not_true_iff_false. intros C. rewrite forallb_forall in C. specialize (C r Hr). destruct (Z.leb_spec vaddr (fst r)); [lia|]. discriminate C.
Qed.
Fixpoint topinner (base : nat) (f : forest) (a : Z) : option nat :=
  match f with
  | FNil => None
  | FCons n k r => if islive n && cov (ranges n) a then match inner (S base) k a with Some i => Some i | None => Some base end else topinner (S base + size k) r a
  end.
Lemma insert_top st bad f : 0 <= vaddr -> forall base done m, placed st None None base f -> good_forest vaddr f -> Forall (fun n => sorted (ranges n)) (nodes f) ->
  (forall b n k i, In (b, n, k) (roots base f) -> live vaddr (n, k) -> within_tree b k i -> ~ In i bad) ->
  (forall b n k i, In (b, n, k) (roots base f) -> dead vaddr (n, k) -> root_used (n_info n) = true -> within_tree b k i -> In i bad) ->
  stored done m -> (forall r n k q, In r done -> In (n, k) (trees f) -> live vaddr (n, k) -> In q (ranges n) -> apart r q) ->
  exists m' done', insert_all st bad (post None base f) m = Ok m' /\ stored done' m' /\ forall a, val m' a = match val m a with Some x => Some x | None => topinner base f a end.
Proof.
  intros V0. induction f as [|n k _ r IHr]; intros base done m P G SO NB DB ST AP; cbn [post used_of placed good_forest nodes trees roots topinner] in *.
  - exists m, done. cbn [insert_all]. split; [reflexivity|]. split; [exact ST|]. intros a. destruct (val m a); reflexivity.
  - destruct P as (P1 & P2 & P3). destruct G as (G1 & G2). inversion SO as [|? ? SO1 SO2]; subst. apply Forall_app in SO2. destruct SO2 as (SO2 & SO3). rewrite app_assoc, insert_all_app.
    assert (REST : forall done m, stored done m -> (forall r0 n0 k0 q, In r0 done -> In (n0, k0) (trees r) -> live vaddr (n0, k0) -> In q (ranges n0) -> apart r0 q) ->
      exists m' done', insert_all st bad (post None (S base + size k) r) m = Ok m' /\ stored done' m' /\ forall a, val m' a = match val m a with Some x => Some x | None => topinner (S base + size k) r a end).
    { intros done0 m0 ST0 AP0. apply (IHr (S base + size k)%nat done0 m0 P3 G2 SO3); [|  |exact ST0|exact AP0].
      - intros b n0 k0 i H. apply (NB b n0 k0 i). right. exact H.
      - intros b n0 k0 i H. apply (DB b n0 k0 i). right. exact H. }
    destruct G1 as [DE|(LI & DJ)].
    + rewrite insert_all_skip.
      * cbn [obind]. rewrite (islive_dead n k DE). cbn [andb]. apply (REST done m ST). intros r0 n0 k0 q H1 H2. apply (AP r0 n0 k0 q H1). right. exact H2.
      * destruct (root_used (n_info n)) eqn:U; [|rewrite post_false; intros x []]. intros x Hx. apply (DB base n k x (or_introl eq_refl) DE U). apply in_app_or in Hx. destruct Hx as [Hx|[->|[]]]; [right; apply post_true; exact Hx|left; reflexivity].
    + assert (LU := live_used vaddr n k LI). rewrite LU in *. rewrite (islive_live n k LI). cbn [andb]. assert (LI' := LI). destruct LI' as (_ & _ & FA & N). cbn [fst snd] in FA, N. rewrite Forall_forall in FA.
      assert (NW := nested_nodes _ _ N). assert (WI : Forall (fun c => within (ranges c) (ranges n)) (nodes k)) by (eapply Forall_impl; [|exact NW]; cbv beta; tauto).
      assert (TW := tops_nodes k).
      rewrite insert_all_app.
      destruct (insert_nested st bad k (Some true) (Some base) (S base) (ranges n) done m P2 N) as (m1 & d1 & E1 & ST1 & I1 & V1); [intros q Hq; specialize (FA q Hq); cbv beta in FA; lia|exact SO2| |exact ST| |].
      { intros i c Hc. apply (NB base n k i (or_introl eq_refl) LI). right. exists c. exact Hc. }
      { intros x c q Hx Hc Hq. rewrite Forall_forall in WI. destruct (WI c (TW c Hc) q Hq) as (o & Ho & L). specialize (AP x n k o Hx (or_introl eq_refl) LI Ho). unfold apart in *. lia. }
      rewrite E1. cbn [obind].
      destruct (insert_entry st bad base n k true None d1 m1 P1) as (m2 & E2 & ST2 & V2); [apply (NB base n k base (or_introl eq_refl) LI); left; reflexivity|exact SO1| |exact ST1| |exact WI|].
      { rewrite Forall_forall. intros q Hq. specialize (FA q Hq). cbv beta in FA. lia. }
      { intros x q Hx Hq. destruct (I1 x Hx) as [H|H]; [left; apply (AP x n k q H); [left; reflexivity|exact LI|exact Hq]|right; exact H]. }
      rewrite E2. cbn [obind]. destruct (REST (d1 ++ ranges n) m2 ST2) as (m3 & d3 & E3 & ST3 & V3).
      { intros x n0 k0 q Hx H0 L0 Hq. specialize (DJ (n0, k0) H0 L0). cbn [fst] in DJ. apply in_app_or in Hx. destruct Hx as [Hx|Hx].
        - destruct (I1 x Hx) as [H|(c' & Hc' & Hx')]; [apply (AP x n0 k0 q H); [right; exact H0|exact L0|exact Hq]|]. rewrite Forall_forall in WI. destruct (WI c' Hc' x Hx') as (o & Ho & L). destruct (DJ o q Ho Hq); unfold apart; lia.
        - destruct (DJ x q Hx Hq); unfold apart; lia. }
      exists m3, d3. split; [exact E3|]. split; [exact ST3|]. intros a. rewrite V3, V2, V1. destruct (val m a); [reflexivity|]. destruct (inner (S base) k a) as [i|] eqn:EI; [rewrite (inner_outer k _ _ _ _ N EI); reflexivity|]. destruct (cov (ranges n) a); reflexivity.
Qed.
Lemma populated st f : 0 <= vaddr -> placed st None None O f -> order st = post None O f -> good_forest vaddr f -> Forall (fun n => sorted (ranges n)) (nodes f) ->
  exists m, PopulateSubprogramsByAddress vaddr st = Ok m /\ forall a, GetSubprogramForAddress m a = topinner O f a.
Proof.
  intros V0 PL OD GF SR. unfold PopulateSubprogramsByAddress. destruct (insert_top st (FindBadSubprograms vaddr st) f V0 O [] [] PL GF SR) as (m & d & E & ST & V).
  - intros b n k i. apply live_kept; assumption.
  - intros b n k i. apply dead_dropped; assumption.
  - split; [exact Logic.I|intros e []].
  - intros r n k q [].
  - rewrite OD. exists m. split; [exact E|]. intros a. unfold GetSubprogramForAddress. rewrite (Find_lk 0 m a (proj1 ST)). fold (val m a). rewrite V. reflexivity.
Qed.
End Top.
