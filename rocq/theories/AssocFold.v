(** Generic facts on association lists updated entry by entry (used for the
    "for each entry of src: dst[key] += value" loops). *)
From Verif Require Import Base.
From Coq Require Import Permutation.

Section Fold.
  Context {K V : Type} (eqb : K -> K -> bool) (comb : V -> V -> V) (d0 : V).
  Hypothesis eqb_spec : forall a b, reflect (a = b) (eqb a b).
  Definition getd (k : K) (m : list (K * V)) : V :=
    match aget eqb k m with Some v => v | None => d0 end.
  Definition foldin (s d : list (K * V)) : list (K * V) :=
    fold_left (fun m '(k, c) => aset eqb k (comb (getd k m) c) m) s d.

  Lemma aget_foldin_notin k s d :
    ~ In k (akeys s) -> aget eqb k (foldin s d) = aget eqb k d.
  Proof.
    revert d; induction s as [|[k' c] s IH]; intros d Hn; [reflexivity|].
    cbn [foldin fold_left]. change (aget eqb k (foldin s (aset eqb k' (comb (getd k' d) c) d)) = aget eqb k d).
    cbn [akeys map In fst] in Hn.
    rewrite IH by (unfold akeys; tauto). apply aget_aset_other; [exact eqb_spec|]. intuition congruence.
  Qed.

  Lemma aget_foldin k s d :
    NoDup (akeys s) ->
    aget eqb k (foldin s d) =
    match aget eqb k s with Some c => Some (comb (getd k d) c) | None => aget eqb k d end.
  Proof.
    revert d; induction s as [|[k' c] s IH]; intros d Hn; [reflexivity|].
    inversion Hn as [|? ? Hnot Hn']; subst.
    cbn [foldin fold_left]. fold (foldin s (aset eqb k' (comb (getd k' d) c) d)).
    cbn [aget].
    destruct (eqb_spec k k') as [->|Hne].
    - rewrite aget_foldin_notin by exact Hnot. rewrite aget_aset_same by exact eqb_spec. reflexivity.
    - rewrite IH by exact Hn'. unfold getd. rewrite aget_aset_other by assumption. reflexivity.
  Qed.

  Lemma NoDup_foldin s d : NoDup (akeys d) -> NoDup (akeys (foldin s d)).
  Proof.
    revert d; induction s as [|[k' c] s IH]; intros d Hd; [exact Hd|].
    cbn [foldin fold_left]. apply IH. apply NoDup_akeys_aset; assumption.
  Qed.

  Lemma In_aset k v (m : list (K * V)) k2 v2 :
    In (k2, v2) (aset eqb k v m) -> In (k2, v2) m \/ v2 = v.
  Proof.
    induction m as [|[k' v'] m IH]; cbn [aset].
    - intros [E|[]]. injection E; intros; subst; auto.
    - destruct (eqb_spec k k') as [->|Hne]; cbn [In].
      + intros [E|H]; [injection E; intros; subst; auto|auto].
      + intros [E|H]; [auto|]. destruct (IH H); auto.
  Qed.

  Lemma foldin_pres (P Q : V -> Prop) s d :
    P d0 -> (forall a b, P a -> Q b -> P (comb a b)) ->
    (forall k v, In (k, v) s -> Q v) -> (forall k v, In (k, v) d -> P v) ->
    forall k v, In (k, v) (foldin s d) -> P v.
  Proof.
    intros H0 Hc. revert d; induction s as [|[k' c] s IH]; intros d Hs Hd; [exact Hd|].
    cbn [foldin fold_left]. apply IH.
    - intros k v Hi. apply (Hs k). right; exact Hi.
    - intros k v Hi. apply In_aset in Hi. destruct Hi as [Hi| ->]; [eauto|].
      apply Hc; [|apply (Hs k'); left; reflexivity].
      unfold getd. destruct (aget eqb k' d) eqn:E; [|exact H0].
      apply aget_In in E; [|exact eqb_spec]. eauto.
  Qed.
End Fold.

Lemma aget_In_some {K V} eqb (sp : forall a b : K, reflect (a = b) (eqb a b)) k (v : V) m :
  In (k, v) m -> exists v', aget eqb k m = Some v'.
Proof.
  intros Hi. destruct (aget eqb k m) eqn:E; [eauto|].
  apply (aget_None_iff eqb sp) in E. exfalso. apply E. apply (in_map fst) in Hi. exact Hi.
Qed.
