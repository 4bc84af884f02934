(** std::map / ordered maps keyed by integers, as lists of (key, value) in
    ascending key order (no code of /repo is modelled here). *)
From Verif Require Import Base.

Section ZMap.
Context {V : Type}.
Implicit Type m : list (Z * V).

Inductive zsorted : list (Z * V) -> Prop :=
| zs_nil : zsorted []
| zs_cons k v m : (forall k' v', In (k', v') m -> k < k') -> zsorted m -> zsorted ((k, v) :: m).

(** std::map::find *)
Fixpoint zfind (k : Z) m : option V :=
  match m with
  | [] => None
  | (k', v) :: m' => if k =? k' then Some v else zfind k m'
  end.

(** std::map::insert / emplace: no effect if the key is present *)
Fixpoint zinsert (k : Z) (v : V) m : list (Z * V) :=
  match m with
  | [] => [(k, v)]
  | (k', v') :: m' =>
      if k <? k' then (k, v) :: m
      else if k =? k' then m
      else (k', v') :: zinsert k v m'
  end.

(** m[k] = v *)
Fixpoint zset (k : Z) (v : V) m : list (Z * V) :=
  match m with
  | [] => [(k, v)]
  | (k', v') :: m' =>
      if k <? k' then (k, v) :: m
      else if k =? k' then (k, v) :: m'
      else (k', v') :: zset k v m'
  end.

(** the entry before upper_bound(k): the last one with key <= k *)
Fixpoint zpred (k : Z) m : option (Z * V) :=
  match m with
  | [] => None
  | (k', v') :: m' =>
      if k' <=? k then match zpred k m' with Some e => Some e | None => Some (k', v') end
      else None
  end.

Lemma zfind_In k v m : zsorted m -> (zfind k m = Some v <-> In (k, v) m).
Proof.
  induction 1 as [|k0 v0 m L S IH]; cbn; [split; [discriminate|contradiction]|].
  destruct (k =? k0) eqn:E.
  - assert (k = k0) by lia; subst. split.
    + intros H; inversion H; auto.
    + intros [H|H]; [inversion H; auto|]. apply L in H. lia.
  - rewrite IH. split; auto. intros [H|H]; auto. inversion H; lia.
Qed.

Lemma zfind_zset k k' v m : zsorted m ->
  zfind k' (zset k v m) = if k' =? k then Some v else zfind k' m.
Proof.
  induction 1 as [|k0 v0 m L S IH]; cbn.
  - reflexivity.
  - destruct (k <? k0) eqn:E1; [reflexivity|].
    destruct (k =? k0) eqn:E2.
    + assert (k = k0) by lia; subst. cbn. destruct (k' =? k0) eqn:E3; auto.
    + cbn. rewrite IH. destruct (k' =? k0) eqn:E3; auto.
      assert (k' =? k = false) as -> by lia. auto.
Qed.

Lemma zset_keys k v m k1 v1 : In (k1, v1) (zset k v m) -> (k1 = k /\ v1 = v) \/ In (k1, v1) m.
Proof.
  induction m as [|[k0 v0] m IH]; cbn.
  - intros [H|[]]; inversion H; auto.
  - destruct (k <? k0); [|destruct (k =? k0)]; cbn.
    + intros [H|H]; [inversion H; auto|auto].
    + intros [H|H]; [inversion H; auto|auto].
    + intros [H|H]; [auto|]. apply IH in H. tauto.
Qed.

Lemma zset_sorted k v m : zsorted m -> zsorted (zset k v m).
Proof.
  induction 1 as [|k0 v0 m L S IH]; cbn.
  - constructor; [intros k' v' []|constructor].
  - destruct (k <? k0) eqn:E1; [|destruct (k =? k0) eqn:E2].
    + constructor; [|constructor; auto]. intros k' v' [H|H]; [inversion H; lia|].
      apply L in H. lia.
    + constructor; auto. intros k' v' H. apply L in H. lia.
    + constructor; auto. intros k' v' H. apply zset_keys in H.
      destruct H as [[-> _]|H]; [lia|eauto].
Qed.

Lemma zinsert_keys k v m k1 v1 : In (k1, v1) (zinsert k v m) -> (k1 = k /\ v1 = v) \/ In (k1, v1) m.
Proof.
  induction m as [|[k0 v0] m IH]; cbn.
  - intros [H|[]]; inversion H; auto.
  - destruct (k <? k0); [|destruct (k =? k0)]; cbn.
    + intros [H|H]; [inversion H; auto|auto].
    + auto.
    + intros [H|H]; [auto|]. apply IH in H. tauto.
Qed.

Lemma zinsert_sorted k v m : zsorted m -> zsorted (zinsert k v m).
Proof.
  induction 1 as [|k0 v0 m L S IH]; cbn.
  - constructor; [intros k' v' []|constructor].
  - destruct (k <? k0) eqn:E1; [|destruct (k =? k0) eqn:E2].
    + constructor; [|constructor; auto]. intros k' v' [H|H]; [inversion H; lia|].
      apply L in H. lia.
    + constructor; auto.
    + constructor; auto. intros k' v' H. apply zinsert_keys in H.
      destruct H as [[-> _]|H]; [lia|eauto].
Qed.

Lemma zfind_zinsert k k' v m : zsorted m ->
  zfind k' (zinsert k v m) =
  if k' =? k then (match zfind k m with Some w => Some w | None => Some v end) else zfind k' m.
Proof.
  induction 1 as [|k0 v0 m L S IH]; cbn.
  - reflexivity.
  - destruct (k <? k0) eqn:E1.
    + cbn. assert (k =? k0 = false) as -> by lia. destruct (k' =? k) eqn:E; auto.
      assert (Hn : zfind k m = None); [|rewrite Hn; auto].
      destruct (zfind k m) eqn:F; auto. apply zfind_In in F; auto. apply L in F. lia.
    + destruct (k =? k0) eqn:E2.
      * assert (k = k0) by lia; subst. cbn. destruct (k' =? k0); auto.
      * cbn. rewrite IH. destruct (k' =? k0) eqn:E3; auto.
        assert (k' =? k = false) as -> by lia. auto.
Qed.

Lemma zpred_None k m : zsorted m ->
  (zpred k m = None <-> forall e, In e m -> k < fst e).
Proof.
  induction 1 as [|k0 v0 m L S IH]; cbn.
  - split; [intros _ e []|auto].
  - destruct (k0 <=? k) eqn:E.
    + split; [destruct (zpred k m); discriminate|].
      intros H. specialize (H (k0, v0) (or_introl eq_refl)). cbn in H. lia.
    + split; auto. intros _ [k1 v1] [H|H]; [inversion H; cbn; lia|].
      apply L in H. cbn; lia.
Qed.

Lemma zpred_spec k m e : zsorted m ->
  zpred k m = Some e <->
  In e m /\ fst e <= k /\ forall e', In e' m -> fst e' <= k -> fst e' <= fst e.
Proof.
  intros S0. revert e. induction S0 as [|k0 v0 m L S IH]; intros e; cbn.
  - split; [discriminate|intros [[] _]].
  - destruct (k0 <=? k) eqn:E.
    + destruct (zpred k m) as [e1|] eqn:P.
      * destruct (proj1 (IH e1) eq_refl) as (A & B & C). split.
        -- intros H; inversion H; subst. split; auto. split; auto.
           intros e' [<-|H'] R; auto. destruct e as [k1 v1]. apply L in A. cbn; lia.
        -- intros (H1 & H2 & H3). destruct H1 as [<-|H1].
           ++ exfalso. specialize (H3 e1 (or_intror A) B). destruct e1 as [k1 v1].
              apply L in A. cbn in *; lia.
           ++ apply IH. split; auto.
      * split.
        -- intros H; inversion H; subst. split; [left; auto|]. split; [cbn; lia|].
           intros e' [<-|H'] R; [lia|]. exfalso.
           pose proof (proj1 (zpred_None k m S) P _ H'). lia.
        -- intros (H1 & H2 & H3). destruct H1 as [<-|H1]; auto. exfalso.
           pose proof (proj1 (zpred_None k m S) P _ H1). lia.
    + split; [discriminate|]. intros (H1 & H2 & H3). exfalso.
      destruct H1 as [<-|H1]; [cbn in H2; lia|]. destruct e as [k1 v1].
      apply L in H1. cbn in H2. lia.
Qed.

Lemma zsorted_nodup k v v' m : zsorted m -> In (k, v) m -> In (k, v') m -> v = v'.
Proof.
  intros S A B. apply (zfind_In k v m S) in A. apply (zfind_In k v' m S) in B. congruence.
Qed.
End ZMap.
