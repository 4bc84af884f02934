(** C55: the two queues of candidate merges behave alike. *)
From Verif Require Import Base ISort ChainModel ChainBuildModel ChainQueueInvProofs AsmQueueModel AsmQueueSpec AsmQueueProofs.
From Coq Require Import Sorted Permutation.

(** For every sequence of insertions and removals: the tree queue never uses a
    dangling iterator; both queues are empty exactly when nothing inserted is
    left; and otherwise both give, whatever the order in which the hash map is
    iterated, the one assembly that is left and better than all others left. *)
Theorem C55_queues ops :
  exists q, tq_run ops tq0 = Some q /\
    (tq_empty q = true <-> forall a, ~ live ops a) /\
    (iq_empty (iq_run ops) = true <-> forall a, ~ live ops a) /\
    forall m, Permutation m (iq_run ops) ->
      tq_best q = best_of m /\
      match best_of m with
      | None => forall a, ~ live ops a
      | Some b => live ops b /\ forall a, live ops a -> a = b \/ worse a b
      end.
Proof.
  destruct (tinv_run ops [] tq0 tinv0) as (q & R & T). exists q. split; [exact R|]. cbn [app] in T. pose proof (iinv_run ops [] [] iinv0) as J. fold (iq_run ops) in J. cbn [app] in J.
  split; [|split].
  - unfold tq_empty. pose proof (ti_live _ _ T) as L. destruct (tq_items q) as [|[i b] t]; split; intros H; try reflexivity; try discriminate.
    + intros a K. apply L in K as [j []].
    + exfalso. apply (H b). apply L. exists i. left. reflexivity.
  - unfold iq_empty. pose proof (ii_live _ _ J) as L. destruct (iq_run ops) as [|[i b] t]; split; intros H; try reflexivity; try discriminate.
    + intros a K. apply L in K as [j []].
    + exfalso. apply (H b). apply L. exists i. left. reflexivity.
  - intros m P. assert (IN : forall x, In x m <-> In x (iq_run ops)) by (intros x; split; apply Permutation_in; [exact P|symmetry; exact P]).
    assert (B := best_of_max m). pose proof (set_last_spec (tq_items q) (ti_sorted _ _ T)) as S. unfold tq_best.
    assert (TT : forall x y, In x m -> In y m -> snd x = snd y \/ worse (snd x) (snd y) \/ worse (snd y) (snd x)).
    { intros [k a] [l b] HA HB. apply IN in HA, HB. cbn [snd]. pose proof (ii_key _ _ J _ _ HA) as KA. pose proof (ii_key _ _ J _ _ HB) as KB.
      destruct (pair_reflect (a_pair a) (a_pair b)) as [E|E]; [left|right; exact (worse_total _ _ E)].
      apply (aget_NoDup_In pair_eqb pair_reflect _ _ _ (ii_nodup _ _ J)) in HA, HB. congruence. }
    specialize (B TT). destruct (best_of m) as [b|], (set_last (tq_items q)) as [c|].
    + destruct B as [[k Bk] BM], S as [[i Si] SM]. apply IN in Bk. assert (LB : live ops b) by (apply (ii_live _ _ J); exists k; exact Bk). assert (LC : live ops c) by (apply (ti_live _ _ T); exists i; exact Si).
      assert (BM' : forall a, live ops a -> a = b \/ worse a b) by (intros a LA; apply (ii_live _ _ J) in LA as [k2 LA]; exact (BM (k2, a) (proj2 (IN _) LA))).
      assert (SM' : forall a, live ops a -> a = c \/ worse a c) by (intros a LA; apply (ti_live _ _ T) in LA as [k2 LA]; exact (SM (k2, a) LA)).
      split; [|split; assumption]. destruct (BM' c LC) as [E|W]; [congruence|]. destruct (SM' b LB) as [E|W2]; [congruence|]. exfalso. exact (worse_irrefl _ (worse_trans _ _ _ W W2)).
    + exfalso. destruct B as [[k Bk] _]. apply IN in Bk. assert (LB : live ops b) by (apply (ii_live _ _ J); exists k; exact Bk). apply (ti_live _ _ T) in LB as [i LB]. rewrite S in LB. exact LB.
    + exfalso. destruct S as [[i Si] _]. assert (LC : live ops c) by (apply (ti_live _ _ T); exists i; exact Si). apply (ii_live _ _ J) in LC as [k LC]. apply IN in LC. rewrite B in LC. exact LC.
    + split; [reflexivity|]. intros a LA. apply (ti_live _ _ T) in LA as [i LA]. rewrite S in LA. exact LA.
Qed.
Print Assumptions C55_queues.

(** The order on assemblies of different pairs of chains has no ties, so "the
    best" is one assembly. *)
Theorem C55_no_ties a b : (a_split a, a_unsplit a) <> (a_split b, a_unsplit b) ->
  (worse a b /\ ~ worse b a) \/ (worse b a /\ ~ worse a b).
Proof.
  intros D. destruct (worse_total a b D) as [W|W]; [left|right]; (split; [exact W|]); intros V; exact (worse_irrefl _ (worse_trans _ _ _ W V)).
Qed.
Print Assumptions C55_no_ties.

Definition qa s u g := Assembly s u kSU None [] g.
Definition qops := [QInsert (qa 1 2 5); QInsert (qa 2 1 5); QInsert (qa 3 1 9); QInsert (qa 3 1 4); QRemove (7, 7); QInsert (qa 1 3 6); QRemove (1, 3)].
Example C55_nonvacuous :
  (exists q, tq_run qops tq0 = Some q /\ tq_best q = Some (qa 1 2 5) /\ length (tq_items q) = 3%nat) /\
  live qops (qa 1 2 5) /\ live qops (qa 3 1 4) /\ best_of (rev (iq_run qops)) = Some (qa 1 2 5).
Proof.
  split; [eexists; split; [vm_compute; reflexivity|]; split; vm_compute; reflexivity|]. split; [|split].
  - exists [], (tl qops). split; [reflexivity|]. intros o H. cbn in H. destruct H as [<-|[<-|[<-|[<-|[<-|[<-|[]]]]]]]; cbn; intros X; try discriminate X; destruct X; discriminate.
  - exists (firstn 3 qops), (skipn 4 qops). split; [reflexivity|]. intros o H. cbn in H. destruct H as [<-|[<-|[<-|[]]]]; cbn; intros X; try discriminate X; destruct X; discriminate.
  - vm_compute. reflexivity.
Qed.
