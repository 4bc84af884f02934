(** C13: grouping of mutually recursive functions and the order in which
    inclusive counts are computed. *)
From Verif Require Import Base SccModel SccSpec SccProofs SccTopo.
From Coq Require Import Relations.Relation_Operators Relations.Operators_Properties.

Lemma root_props g m : graph_ok g -> sccmap g = Some m ->
  idem m /\ (forall x, In x (g_nodes g) -> mutually_recursive g x (root m x) /\ In (root m x) (g_nodes g)).
Proof.
  intros G E. destruct (sccmap_ok g G) as [m' [E' [H1 H2]]]. replace m' with m in * by congruence. split.
  - intros x. unfold root. destruct (aget Nat.eqb x m) as [r|] eqn:A.
    + destruct (H1 x r A) as [_ [B _]]. rewrite B. reflexivity.
    + rewrite A. reflexivity.
  - intros x Hx. destruct (H2 x Hx) as [r Hr]. unfold root. rewrite Hr. destruct (H1 x r Hr) as [A [_ B]]. auto.
Qed.
Lemma collapsed_nodes m g x : In x (g_nodes (CollapseSCC m g)) <-> In x (g_nodes g) /\ root m x = x.
Proof. unfold CollapseSCC. cbn [g_nodes]. rewrite filter_In, Nat.eqb_eq. intuition congruence. Qed.
Lemma mr_sym g a b : mutually_recursive g a b -> mutually_recursive g b a.
Proof. intros [A B]. split; assumption. Qed.
Lemma mr_trans g a b c : mutually_recursive g a b -> mutually_recursive g b c -> mutually_recursive g a c.
Proof. intros [A B] [C D]. split; eapply reaches_trans; eassumption. Qed.

Section Collapsed.
  Context (g : graph) (m : list (nat * nat)) (G : graph_ok g) (E : sccmap g = Some m).
  Let g' := CollapseSCC m g.
  Lemma col_call r x : In r (g_nodes g') -> In x (g_callees g' r) -> In x (g_nodes g') /\ reaches g r x /\ x <> r.
  Proof.
    intros Hr Hx. destruct (root_props g m G E) as [Hid Hro]. apply collapsed_nodes in Hr as [Hr Hrr].
    apply (collapse_callees m g r x Hid (proj1 G) Hr Hrr) in Hx as [N [w [y [Hw [Rw [Hy Ry]]]]]].
    assert (Hyn : In y (g_nodes g)) by (eapply (proj2 G); eassumption).
    destruct (Hro w Hw) as [[W1 W2] _]. destruct (Hro y Hyn) as [[Y1 Y2] Y3]. rewrite Rw in *. rewrite Ry in *.
    split; [apply collapsed_nodes; split; [exact Y3|]; rewrite <- Ry; apply Hid|]. split; [|exact N].
    eapply reaches_trans; [exact W2|]. eapply reaches_trans; [apply reaches_step; exact Hy|exact Y1].
  Qed.
  Lemma col_reaches r x : reaches g' r x -> In r (g_nodes g') -> In x (g_nodes g') /\ reaches g r x.
  Proof.
    intros R. apply clos_rt_rt1n in R. induction R as [a|a c b Hac R IH]; intros Ha; [split; [exact Ha|apply reaches_refl]|].
    destruct (col_call a c Ha Hac) as [Hc [Rc _]]. destruct (IH Hc) as [Hb Rb]. split; [exact Hb|]. eapply reaches_trans; eassumption.
  Qed.
  Lemma reaches_col a b : reaches g a b -> In a (g_nodes g) -> In b (g_nodes g) /\ reaches g' (root m a) (root m b).
  Proof.
    destruct (root_props g m G E) as [Hid Hro].
    intros R. apply clos_rt_rt1n in R. induction R as [a|a c b Hac R IH]; intros Ha; [split; [exact Ha|apply reaches_refl]|].
    assert (Hc : In c (g_nodes g)) by (eapply (proj2 G); eassumption). destruct (IH Hc) as [Hb Rb]. split; [exact Hb|].
    destruct (Nat.eq_dec (root m a) (root m c)) as [Q|Q]; [rewrite Q; exact Rb|].
    eapply reaches_trans; [apply reaches_step|exact Rb]. unfold calls.
    apply (collapse_callees m g (root m a) (root m c) Hid (proj1 G) (proj2 (Hro a Ha)) (Hid a)).
    split; [congruence|]. exists a, c. auto.
  Qed.
End Collapsed.

(** Every function gets a group with a representative in the graph; functions
    put in one group are mutually recursive. *)
Theorem C13_grouping g : graph_ok g ->
  exists m, sccmap g = Some m /\
    (forall x, In x (g_nodes g) -> In (root m x) (g_nodes g) /\ same_group m x (root m x) /\ mutually_recursive g x (root m x)) /\
    (forall a b, In a (g_nodes g) -> In b (g_nodes g) -> same_group m a b -> mutually_recursive g a b).
Proof.
  intros G. destruct (sccmap_ok g G) as [m [E _]]. exists m. split; [exact E|]. destruct (root_props g m G E) as [Hid Hro]. split.
  - intros x Hx. destruct (Hro x Hx) as [A B]. split; [exact B|]. split; [|exact A]. unfold same_group. symmetry. apply Hid.
  - intros a b Ha Hb S. destruct (Hro a Ha) as [A _], (Hro b Hb) as [B _]. unfold same_group in S. rewrite <- S in B.
    eapply mr_trans; [exact A|]. apply mr_sym. exact B.
Qed.
Print Assumptions C13_grouping.

(** The computation either succeeds, with every group exactly once, callee
    groups before caller groups, and all mutually recursive functions in one
    group; or it aborts, and then two mutually recursive functions were put in
    different groups.  It always terminates. *)
Theorem C13_order_partial g m : graph_ok g -> sccmap g = Some m ->
  match inclusive_order g with
  | Ok s =>
      NoDup s /\
      (forall r, In r s <-> In r (g_nodes g) /\ root m r = r) /\
      (forall a b, In a (g_nodes g) -> calls g a b -> ~ same_group m a b -> precedes s (root m b) (root m a)) /\
      (forall a b, In a (g_nodes g) -> In b (g_nodes g) -> mutually_recursive g a b -> same_group m a b)
  | Abort => exists a b, In a (g_nodes g) /\ In b (g_nodes g) /\ mutually_recursive g a b /\ ~ same_group m a b
  | UB => False
  end.
Proof.
  intros G E. unfold inclusive_order. rewrite E. destruct (root_props g m G E) as [Hid Hro].
  set (g' := CollapseSCC m g).
  assert (G' : forall a b, In a (g_nodes g') -> In b (g_callees g' a) -> In b (g_nodes g')).
  { intros a b Ha Hb. apply (col_call g m G E a b Ha Hb). }
  pose proof (topo_ok g' G') as T. destruct (ReverseTopoSort g') as [s| |]; [|destruct T as [a [Ha [c [Hc R]]]]|exact T].
  - destruct T as [ND [O Hs]]. split; [exact ND|]. split; [intros r; rewrite Hs; apply collapsed_nodes|]. split.
    + intros a b Ha Hab S. unfold same_group in S.
      assert (Hcall : In (root m b) (g_callees g' (root m a))).
      { apply (collapse_callees m g (root m a) (root m b) Hid (proj1 G) (proj2 (Hro a Ha)) (Hid a)).
        split; [congruence|]. exists a, b. auto. }
      assert (Hin : In (root m a) s) by (apply Hs, collapsed_nodes; split; [apply Hro; exact Ha|apply Hid]).
      apply in_split in Hin as [l1 [l2 Es]]. pose proof (O l1 _ l2 Es _ Hcall) as Hl. apply in_split in Hl as [k1 [k2 Ek]].
      exists k1, k2, l2. rewrite Es, Ek, <- app_assoc. reflexivity.
    + intros a b Ha Hb [R1 R2]. unfold same_group. destruct (Nat.eq_dec (root m a) (root m b)) as [Q|Q]; [exact Q|exfalso].
      destruct (reaches_col g m G E a b R1 Ha) as [_ C1]. destruct (reaches_col g m G E b a R2 Hb) as [_ C2].
      apply (ordered_acyclic g' s G' ND O Hs (root m a)).
      * apply collapsed_nodes. split; [apply Hro; exact Ha|apply Hid].
      * apply clos_rt_rt1n in C1. inversion C1 as [|y z Y Z]; subst; [congruence|]. exists y. split; [exact Y|].
        eapply reaches_trans; [apply clos_rt1n_rt; exact Z|exact C2].
  - destruct (col_call g m G E a c Ha Hc) as [Hc' [R1 N]]. destruct (col_reaches g m G E c a R Hc') as [_ R2].
    apply collapsed_nodes in Ha as [Ha Ra]. apply collapsed_nodes in Hc' as [Hc' Rc]. exists a, c.
    split; [exact Ha|]. split; [exact Hc'|]. split; [split; assumption|]. unfold same_group. congruence.
Qed.
Print Assumptions C13_order_partial.

(** When functions only call themselves recursively, the computation succeeds. *)
Theorem C13_self_recursion_only g : graph_ok g ->
  (forall a b, In a (g_nodes g) -> In b (g_nodes g) -> mutually_recursive g a b -> a = b) ->
  exists s, inclusive_order g = Ok s /\ NoDup s /\ (forall x, In x s <-> In x (g_nodes g)) /\
    forall a b, In a (g_nodes g) -> calls g a b -> a <> b -> precedes s b a.
Proof.
  intros G H. destruct (C13_grouping g G) as [m [E [A B]]]. pose proof (C13_order_partial g m G E) as O.
  assert (R : forall x, In x (g_nodes g) -> root m x = x).
  { intros x Hx. destruct (A x Hx) as [A1 [_ A3]]. symmetry. apply H; assumption. }
  destruct (inclusive_order g) as [s| |]; [|destruct O as [a [b [Ha [Hb [M S]]]]]|destruct O].
  - destruct O as [O1 [O2 [O3 _]]]. exists s. split; [reflexivity|]. split; [exact O1|]. split.
    + intros x. rewrite O2. split; [tauto|]. intros Hx; split; [exact Hx|apply R; exact Hx].
    + intros a b Ha Hab N. assert (Hb : In b (g_nodes g)) by (eapply (proj2 G); eassumption).
      rewrite <- (R a Ha), <- (R b Hb). apply (O3 a b Ha Hab). unfold same_group. rewrite (R a Ha), (R b Hb). exact N.
  - exfalso. apply S. unfold same_group. rewrite (H a b Ha Hb M). reflexivity.
Qed.
Print Assumptions C13_self_recursion_only.

(** The full claim fails: r calls c and u; c calls v and r; v calls c; u calls
    v.  All four are mutually recursive, u is put in a group of its own, and
    the computation aborts with "Found a Loop" (the callees of a function are
    all numbered alike, because the number is passed by value). *)
Definition loop_graph : graph :=
  Graph [0; 1; 2; 3]%nat (fun x => match x with
    | 0 => [1; 3] | 1 => [2; 0] | 2 => [1] | 3 => [2] | _ => [] end)%nat.
Theorem C13_no_abort_refuted :
  exists g, graph_ok g /\ inclusive_order g = Abort /\
    forall a b, In a (g_nodes g) -> In b (g_nodes g) -> mutually_recursive g a b.
Proof.
  exists loop_graph. split; [|split; [vm_compute; reflexivity|]].
  - split; [repeat constructor; cbn; lia|]. intros a b Ha Hb. cbn in Ha.
    repeat (destruct Ha as [<-|Ha]; [cbn in *; lia|]). destruct Ha.
  - assert (S : forall a b, calls loop_graph a b -> reaches loop_graph a b) by (intros; apply reaches_step; assumption).
    assert (R : forall a, In a (g_nodes loop_graph) -> mutually_recursive loop_graph a 0%nat).
    { assert (H01 : reaches loop_graph 0 1) by (apply S; cbn; lia).
      assert (H12 : reaches loop_graph 1 2) by (apply S; cbn; lia).
      assert (H03 : reaches loop_graph 0 3) by (apply S; cbn; lia).
      assert (H10 : reaches loop_graph 1 0) by (apply S; cbn; lia).
      assert (H21 : reaches loop_graph 2 1) by (apply S; cbn; lia).
      assert (H32 : reaches loop_graph 3 2) by (apply S; cbn; lia).
      intros a Ha. cbn in Ha. destruct Ha as [<-|[<-|[<-|[<-|[]]]]]; split; eauto using reaches_trans, reaches_refl. }
    intros a b Ha Hb. eapply mr_trans; [apply R; exact Ha|]. apply mr_sym, R. exact Hb.
Qed.
Print Assumptions C13_no_abort_refuted.

(** f calls g and h; g and h call each other; h calls k and itself. *)
Example C13_nonvacuous :
  let g := Graph [0; 1; 2; 3]%nat (fun x => match x with 0 => [1; 2] | 1 => [2] | 2 => [1; 3; 2] | _ => [] end)%nat in
  graph_ok g /\ sccmap g = Some [(3, 3); (2, 1); (1, 1); (0, 0)]%nat /\ inclusive_order g = Ok [3; 1; 0]%nat.
Proof.
  split; [|split; [vm_compute; reflexivity|vm_compute; reflexivity]].
  split; [repeat constructor; cbn; lia|]. intros a b Ha Hb. cbn in Ha.
  repeat (destruct Ha as [<-|Ha]; [cbn in *; lia|]). destruct Ha.
Qed.
(** f calls itself and g. *)
Example C13_nonvacuous_self :
  let g := Graph [0; 1]%nat (fun x => match x with 0 => [0; 1] | _ => [] end)%nat in
  graph_ok g /\ (forall a b, In a (g_nodes g) -> In b (g_nodes g) -> mutually_recursive g a b -> a = b) /\
  inclusive_order g = Ok [1; 0]%nat.
Proof.
  split; [|split; [|vm_compute; reflexivity]].
  - split; [repeat constructor; cbn; lia|]. intros a b Ha Hb. cbn in Ha.
    repeat (destruct Ha as [<-|Ha]; [cbn in *; lia|]). destruct Ha.
  - set (g := Graph _ _).
    assert (N : reaches g 1%nat 0%nat -> False).
    { intros R. apply clos_rt_rt1n in R. inversion R as [|y z Y Z]; subst. cbn in Y. exact Y. }
    intros a b Ha Hb [R1 R2]. cbn in Ha, Hb. destruct Ha as [<-|[<-|[]]], Hb as [<-|[<-|[]]]; auto; exfalso; auto.
Qed.
