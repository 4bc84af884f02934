(** Insertion sort, standing for std::sort / std::stable_sort / nth_element
    (their result is determined by the comparison when it is a total order on
    the elements; the insertion sort is stable). *)
From Verif Require Import Base.
From Coq Require Export Permutation Sorted.

Section Sort.
  Context {A : Type} (leb : A -> A -> bool).
  Fixpoint insert (x : A) (l : list A) : list A :=
    match l with
    | [] => [x]
    | y :: l' => if leb x y then x :: l else y :: insert x l'
    end.
  Definition isort (l : list A) : list A := fold_right insert [] l.

  Lemma insert_perm x l : Permutation (x :: l) (insert x l).
  Proof.
    induction l as [|y l IH]; cbn [insert]; [apply Permutation_refl|].
    destruct (leb x y); [apply Permutation_refl|].
    eapply perm_trans; [apply perm_swap|]. apply perm_skip; exact IH.
  Qed.
  Lemma isort_perm l : Permutation l (isort l).
  Proof.
    induction l as [|x l IH]; cbn [isort fold_right]; [constructor|].
    eapply perm_trans; [apply perm_skip; exact IH|apply insert_perm].
  Qed.
  Lemma isort_length l : length (isort l) = length l.
  Proof. apply Permutation_length, Permutation_sym, isort_perm. Qed.
  Lemma isort_In l x : In x (isort l) <-> In x l.
  Proof.
    split; apply Permutation_in; [apply Permutation_sym|]; apply isort_perm.
  Qed.

  Definition le_prop (x y : A) : Prop := leb x y = true.
  Hypothesis total : forall x y, leb x y = true \/ leb y x = true.
  Hypothesis trans : forall x y z, leb x y = true -> leb y z = true -> leb x z = true.

  Lemma insert_sorted x l : StronglySorted le_prop l -> StronglySorted le_prop (insert x l).
  Proof.
    induction 1 as [|y l Hs IH Hf]; cbn [insert].
    - repeat constructor.
    - destruct (leb x y) eqn:E.
      + constructor; [constructor; assumption|]. constructor; [exact E|].
        eapply Forall_impl; [|exact Hf]. intros z Hz. unfold le_prop in *. eauto.
      + constructor; [exact IH|]. apply Forall_forall. intros z Hz.
        apply (Permutation_in z (Permutation_sym (insert_perm x l))) in Hz.
        destruct Hz as [<-|Hz].
        * unfold le_prop. destruct (total x y); congruence.
        * rewrite Forall_forall in Hf. auto.
  Qed.
  Lemma isort_sorted l : StronglySorted le_prop (isort l).
  Proof. induction l; cbn [isort fold_right]; [constructor|apply insert_sorted; assumption]. Qed.
End Sort.

(** Rank characterisation of the first k elements of a list sorted by a strict
    total order. *)
Lemma sorted_firstn_rank {A} (ltb : A -> A -> bool) (l : list A) :
  StronglySorted (fun x y => ltb x y = true) l ->
  (forall x y, ltb x y = true -> ltb y x = false) -> (forall x, ltb x x = false) ->
  forall k x, In x (firstn k l) <->
              In x l /\ (length (filter (fun y => ltb y x) l) < k)%nat.
Proof.
  intros Hs Hasym Hirr. induction Hs as [|y l Hs IH Hf]; intros k x.
  - rewrite firstn_nil. cbn. tauto.
  - assert (Hy0 : length (filter (fun z => ltb z y) (y :: l)) = 0%nat).
    { cbn [filter]. rewrite Hirr. rewrite Forall_forall in Hf.
      assert (G : forall l', (forall z, In z l' -> ltb y z = true) -> filter (fun z => ltb z y) l' = []).
      { induction l' as [|z l' IH']; intros Hz; [reflexivity|]. cbn [filter].
        rewrite (Hasym y z) by (apply Hz; left; reflexivity). apply IH'. intros; apply Hz; right; assumption. }
      rewrite G; auto. }
    destruct k as [|k]; [cbn [firstn In]; split; [tauto|intros [_ H]; lia]|].
    cbn [firstn In]. split.
    + intros [<-|Hi].
      * split; [left; reflexivity|]. rewrite Hy0. lia.
      * apply IH in Hi. destruct Hi as [Hi Hl]. split; [right; exact Hi|].
        cbn [filter]. rewrite Forall_forall in Hf. rewrite (Hf x Hi). cbn [length]. lia.
    + intros [[<-|Hi] Hl]; [left; reflexivity|right].
      apply IH. split; [exact Hi|]. cbn [filter] in Hl. rewrite Forall_forall in Hf.
      rewrite (Hf x Hi) in Hl. cbn [length] in Hl. lia.
Qed.

Lemma Permutation_filter {A} (f : A -> bool) l l' :
  Permutation l l' -> Permutation (filter f l) (filter f l').
Proof.
  induction 1 as [|x l l' Hp IH|x y l|l1 l2 l3 P1 IH1 P2 IH2]; cbn [filter].
  - constructor.
  - destruct (f x); [apply perm_skip|]; assumption.
  - destruct (f x), (f y); try apply perm_swap; try apply Permutation_refl.
  - eapply perm_trans; eassumption.
Qed.
Lemma Permutation_filter_length {A} (f : A -> bool) l l' :
  Permutation l l' -> length (filter f l) = length (filter f l').
Proof. intros; apply Permutation_length, Permutation_filter; assumption. Qed.

Lemma StronglySorted_impl_In {A} (R S : A -> A -> Prop) l :
  StronglySorted R l -> (forall x y, In x l -> In y l -> R x y -> S x y) -> StronglySorted S l.
Proof.
  induction 1 as [|x l Hs IH Hf]; intros H; [constructor|].
  constructor.
  - apply IH. intros; apply H; auto; right; assumption.
  - rewrite Forall_forall in *. intros y Hy. apply H; [left; reflexivity|right; exact Hy|auto].
Qed.
Lemma StronglySorted_NoDup_strict {A} (R S : A -> A -> Prop) l :
  StronglySorted R l -> NoDup l -> (forall x y, In x l -> In y l -> x <> y -> R x y -> S x y) ->
  StronglySorted S l.
Proof.
  induction 1 as [|x l Hs IH Hf]; intros Hn H; [constructor|].
  inversion Hn; subst. constructor.
  - apply IH; auto. intros; apply H; auto; right; assumption.
  - rewrite Forall_forall in *. intros y Hy. apply H; [left; reflexivity|right; exact Hy|congruence|auto].
Qed.
Lemma Permutation_sum l l' : Permutation l l' -> fold_right Z.add 0 l = fold_right Z.add 0 l'.
Proof. induction 1; cbn [fold_right]; lia. Qed.
