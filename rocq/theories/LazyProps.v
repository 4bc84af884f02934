(** C45: lazy evaluation happens once. *)
From Verif Require Import Base LazyModel.
From Coq Require Import Permutation.

Section Props.
  Context {In Out World : Type}.
  Notation evaluator := (@evaluator In Out World).
  Notation state := (@state In Out World).

  Definition fresh (e : evaluator) : Prop := match e with Moved => False | _ => True end.

  (** The inputs given at construction, for evaluators built from an adapter. *)
  Definition inputs_of (e : evaluator) : option In := match e with Pending x _ => Some x | _ => None end.

  Lemma set_nth_same {A} (l : list A) i x : (i < length l)%nat -> nth_error (set_nth i x l) i = Some x.
  Proof. revert i; induction l; intros [|i]; cbn; intros; try lia; [reflexivity|]. apply IHl; lia. Qed.
  Lemma set_nth_other {A} (l : list A) i j x : i <> j -> nth_error (set_nth i x l) j = nth_error l j.
  Proof. revert i j; induction l; intros [|i] [|j]; cbn; intros; try congruence; try lia; auto. Qed.
  Lemma set_nth_length {A} (l : list A) i x : length (set_nth i x l) = length l.
  Proof. revert i; induction l; intros [|i]; cbn; auto. Qed.

  (** How the state after a history relates to the initial evaluators [e0]. *)
  Definition inv (e0 : list evaluator) (s : state) : Prop :=
    length (st_evs s) = length e0 /\
    (forall i, match nth_error e0 i with
      | None => ~ List.In i (map fst (st_calls s))
      | Some Moved => False
      | Some (Ready o) => nth_error (st_evs s) i = Some (Ready o) /\ ~ List.In i (map fst (st_calls s))
      | Some (Pending x f) =>
          (nth_error (st_evs s) i = Some (Pending x f) /\ ~ List.In i (map fst (st_calls s))) \/
          (exists o, nth_error (st_evs s) i = Some (Ready o) /\ List.In (i, x) (st_calls s) /\
                     exists w, o = fst (f x w))
      end) /\
    NoDup (map fst (st_calls s)).

  Lemma inv_call e0 s i x : inv e0 s -> List.In (i, x) (st_calls s) ->
    exists f, nth_error e0 i = Some (Pending x f).
  Proof.
    intros (Hl & Hi & Hn) Hin. specialize (Hi i). pose proof (in_map fst _ _ Hin) as Hm. cbn in Hm.
    destruct (nth_error e0 i) as [[x' f| |o]|] eqn:E.
    - destruct Hi as [[_ Hc]|(o & _ & Hin' & _)]; [contradiction|].
      assert (x' = x) as ->; [|exists f; reflexivity].
      clear - Hn Hin Hin'. induction (st_calls s) as [|[j y] l IH]; [destruct Hin|].
      cbn in Hn. inversion Hn as [|? ? Hnin Hn']; subst. destruct Hin as [E|Hin], Hin' as [E'|Hin'].
      + congruence.
      + injection E as -> ->. exfalso; apply Hnin. apply in_map_iff. exists (i, x'). auto.
      + injection E' as -> ->. exfalso; apply Hnin. apply in_map_iff. exists (i, x). auto.
      + auto.
    - destruct Hi.
    - destruct Hi; contradiction.
    - contradiction.
  Qed.

  Lemma eval_step e0 s i : inv e0 s -> (i < length e0)%nat ->
    exists o s', Evaluate i s = Ok (o, s') /\ inv e0 s' /\ nth_error (st_evs s') i = Some (Ready o) /\
      (forall j o', nth_error (st_evs s) j = Some (Ready o') -> nth_error (st_evs s') j = Some (Ready o')) /\
      (exists l, st_calls s' = st_calls s ++ l).
  Proof.
    intros (Hl & Hi & Hn) Hlt. pose proof (Hi i) as Hii.
    destruct (nth_error e0 i) as [[x f| |o]|] eqn:E.
    - destruct Hii as [[Hp Hc]|(o & Hr & Hin & w & Ho)].
      + unfold Evaluate. cbn [evaluate]. rewrite Hp. destruct (f x (st_world s)) as [o w] eqn:Ef.
        cbn [st_evs]. rewrite set_nth_same by (rewrite set_nth_length; lia).
        exists o. eexists. split; [reflexivity|]. cbn [st_evs st_calls]. split; [|split; [|split]].
        * split; [cbn; rewrite !set_nth_length; exact Hl|]. split.
          -- intros j. specialize (Hi j). cbn [st_evs st_calls]. rewrite map_app. cbn [map fst].
             destruct (Nat.eq_dec i j) as [<-|Hne].
             ++ rewrite E. right. exists o. split; [apply set_nth_same; rewrite set_nth_length; lia|].
                split; [apply in_app_iff; right; left; reflexivity|]. exists (st_world s). rewrite Ef. reflexivity.
             ++ rewrite !set_nth_other by exact Hne.
                assert (Hni : forall L, ~ List.In j L -> ~ List.In j (L ++ [i])).
                { intros L HL Hx. apply in_app_iff in Hx. destruct Hx as [Hx|[Hx|[]]]; [contradiction|congruence]. }
                destruct (nth_error e0 j) as [[x' f'| |o']|].
                ** destruct Hi as [[A B]|(o' & A & B & C)]; [left; auto|right; exists o'].
                   split; [exact A|]. split; [apply in_app_iff; left; exact B|exact C].
                ** exact Hi.
                ** destruct Hi; auto.
                ** auto.
          -- cbn [st_calls]. rewrite map_app. cbn [map fst]. apply (Permutation_NoDup (Permutation_cons_append _ _)). constructor; assumption.
        * apply set_nth_same; rewrite set_nth_length; lia.
        * intros j o' Hj. destruct (Nat.eq_dec i j) as [<-|Hne]; [congruence|].
          rewrite !set_nth_other by exact Hne. exact Hj.
        * exists [(i, x)]. reflexivity.
      + exists o, s. unfold Evaluate. cbn [evaluate]. rewrite Hr. split; [reflexivity|].
        split; [split; [exact Hl|split; assumption]|]. split; [reflexivity|]. split; [auto|].
        exists []. symmetry; apply app_nil_r.
    - destruct Hii.
    - destruct Hii as [Hr _]. exists o, s. unfold Evaluate. cbn [evaluate]. rewrite Hr. split; [reflexivity|].
      split; [split; [exact Hl|split; assumption]|]. split; [reflexivity|]. split; [auto|].
      exists []. symmetry; apply app_nil_r.
    - apply nth_error_None in E. lia.
  Qed.

  Lemma run_inv e0 ops : forall s, inv e0 s ->
    (forall i, List.In (Eval i) ops -> (i < length e0)%nat) ->
    exists os s', run ops s = Ok (os, s') /\ inv e0 s' /\
      (forall i o, List.In (i, o) os -> nth_error (st_evs s') i = Some (Ready o)) /\
      (forall j o', nth_error (st_evs s) j = Some (Ready o') -> nth_error (st_evs s') j = Some (Ready o')) /\
      (exists l, st_calls s' = st_calls s ++ l).
  Proof.
    induction ops as [|[i|f] ops IH]; intros s Hinv Hops.
    - exists [], s. split; [reflexivity|]. split; [exact Hinv|]. split; [intros ? ? []|]. split; [auto|].
      exists []. symmetry; apply app_nil_r.
    - destruct (eval_step e0 s i Hinv (Hops i (or_introl eq_refl))) as (o & s1 & E1 & I1 & R1 & K1 & l1 & C1).
      destruct (IH s1 I1 (fun j Hj => Hops j (or_intror Hj))) as (os & s2 & E2 & I2 & R2 & K2 & l2 & C2).
      exists ((i, o) :: os), s2. cbn [run]. rewrite E1. cbn [obind]. rewrite E2. cbn [obind].
      split; [reflexivity|]. split; [exact I2|]. split; [|split].
      + intros j o' [Hj|Hj]; [|auto]. injection Hj as <- <-. auto.
      + auto.
      + exists (l1 ++ l2). rewrite C2, C1, app_assoc. reflexivity.
    - cbn [run]. destruct (IH (State (st_evs s) (f (st_world s)) (st_calls s))) as (os & s' & E & I & R & K & C).
      + exact Hinv.
      + intros j Hj; apply Hops; right; exact Hj.
      + exists os, s'. auto.
  Qed.

  Lemma inv_init e0 w : (forall e, List.In e e0 -> fresh e) -> inv e0 (State e0 w []).
  Proof.
    intros Hf. split; [reflexivity|]. split; [|constructor]. intros i. cbn [st_evs st_calls map].
    destruct (nth_error e0 i) as [[x f| |o]|] eqn:E; cbn.
    - left; auto.
    - apply nth_error_In in E. exact (Hf _ E).
    - auto.
    - auto.
  Qed.

  (** C45.  Take any number of freshly constructed evaluators and any sequence
      of evaluations (of any of them, in any order, as often as desired), with
      arbitrary other code running in between.  No step is undefined; every
      adapter is called at most once, and exactly with the inputs given at its
      construction; an evaluator built from a value never calls anything; and
      all evaluations of the same evaluator return the same value. *)
  Theorem C45_evaluated_once : forall (e0 : list evaluator) w ops,
    (forall e, List.In e e0 -> fresh e) ->
    (forall i, List.In (Eval i) ops -> (i < length e0)%nat) ->
    exists os s', run ops (State e0 w []) = Ok (os, s') /\
      NoDup (map fst (st_calls s')) /\
      (forall i x, List.In (i, x) (st_calls s') -> exists f, nth_error e0 i = Some (Pending x f)) /\
      (forall i o o', List.In (i, o) os -> List.In (i, o') os -> o = o').
  Proof.
    intros e0 w ops Hf Ho. destruct (run_inv e0 ops _ (inv_init e0 w Hf) Ho) as (os & s' & E & I & R & _ & _).
    exists os, s'. split; [exact E|]. split; [apply I|]. split; [intros i x; apply inv_call; exact I|].
    intros i o o' H H'. apply R in H. apply R in H'. congruence.
  Qed.

  (** An evaluation returns: the stored value, or a value its adapter produced
      from the inputs given at construction, in which case the adapter was
      called. *)
  Theorem C45_value : forall (e0 : list evaluator) w ops os s' i o,
    (forall e, List.In e e0 -> fresh e) ->
    (forall i, List.In (Eval i) ops -> (i < length e0)%nat) ->
    run ops (State e0 w []) = Ok (os, s') -> List.In (i, o) os ->
    nth_error e0 i = Some (Ready o) \/
    exists x f w', nth_error e0 i = Some (Pending x f) /\ List.In (i, x) (st_calls s') /\ o = fst (f x w').
  Proof.
    intros e0 w ops os s' i o Hf Ho E Hin.
    destruct (run_inv e0 ops _ (inv_init e0 w Hf) Ho) as (os2 & s2 & E2 & I & R & _ & _).
    rewrite E in E2. injection E2 as <- <-. apply R in Hin. destruct I as (_ & Hi & _). specialize (Hi i).
    destruct (nth_error e0 i) as [[x f| |o']|] eqn:E0.
    - destruct Hi as [[A _]|(o' & A & B & w' & C)]; [congruence|].
      right. exists x, f, w'. split; [reflexivity|]. split; [exact B|]. congruence.
    - destruct Hi.
    - left. destruct Hi as [A _]. congruence.
    - exfalso. destruct (run_inv e0 ops _ (inv_init e0 w Hf) Ho) as (os3 & s3 & E3 & (L & _) & _).
      rewrite E in E3. injection E3 as <- <-. apply nth_error_None in E0.
      assert (nth_error (st_evs s') i <> None) as Hne by congruence. apply nth_error_Some in Hne. lia.
  Qed.

  (** Laziness: an evaluator that is never evaluated never calls its adapter. *)
  Theorem C45_lazy : forall (e0 : list evaluator) w ops os s' i,
    (forall e, List.In e e0 -> fresh e) ->
    (forall i, List.In (Eval i) ops -> (i < length e0)%nat) ->
    run ops (State e0 w []) = Ok (os, s') -> ~ List.In (Eval i) ops -> ~ List.In i (map fst (st_calls s')).
  Proof.
    intros e0 w ops os s' i Hf Ho E Hn.
    assert (G : forall ops s os s', inv e0 s -> (forall i, List.In (Eval i) ops -> (i < length e0)%nat) ->
       run ops s = Ok (os, s') -> ~ List.In (Eval i) ops -> ~ List.In i (map fst (st_calls s)) ->
       ~ List.In i (map fst (st_calls s'))).
    { clear. induction ops as [|[j|f] ops IH]; intros s os s' I Ho E Hn Hc.
      - cbn in E. injection E as <- <-. exact Hc.
      - destruct (eval_step e0 s j I (Ho j (or_introl eq_refl))) as (o & s1 & E1 & I1 & _ & _ & _).
        cbn [run] in E. rewrite E1 in E. cbn [obind] in E. destruct (run ops s1) as [[os2 s2]| |] eqn:E2; try discriminate.
        cbn [obind] in E. injection E as <- <-.
        apply (IH s1 os2 s2 I1); [intros; apply Ho; right; assumption|exact E2|intros H; apply Hn; right; exact H|].
        assert (Hij : i <> j) by (intros ->; apply Hn; left; reflexivity).
        unfold Evaluate in E1. cbn [evaluate] in E1.
        destruct (nth_error (st_evs s) j) as [[x f| |o']|]; try discriminate.
        + destruct (f x (st_world s)) as [o2 w2]. cbn [st_evs] in E1.
          destruct (nth_error _ j) as [[xx ff| |]|]; try discriminate; [destruct (ff _ _); discriminate|].
          injection E1 as <- <-. cbn [st_calls]. rewrite map_app, in_app_iff. cbn. intros [H|[H|[]]]; [contradiction|congruence].
        + injection E1 as <- <-. exact Hc.
      - cbn [run] in E. eapply IH; [| |exact E| |].
        + exact I.
        + intros; apply Ho; right; assumption.
        + intros H; apply Hn; right; exact H.
        + exact Hc. }
    apply (G ops _ os s' (inv_init e0 w Hf) Ho E Hn). cbn. tauto.
  Qed.
End Props.

Example C45_nonvacuous :
  let f := fun (x w : Z) => (x + w, w + 1) in
  let e0 := [make f 5; make_ready 7; make f 1] in
  run [Eval 0; Other (fun w => w * 10); Eval 2; Eval 1; Eval 0; Eval 2] (State e0 3 [])
  = Ok ([(0%nat, 8); (2%nat, 41); (1%nat, 7); (0%nat, 8); (2%nat, 41)],
        State [Ready 8; Ready 7; Ready 41] 41 [(0%nat, 5); (2%nat, 1)])
  /\ (forall e, List.In e e0 -> fresh e).
Proof. split; [reflexivity|]. cbn. intuition (subst; exact I). Qed.

Print Assumptions C45_evaluated_once.
Print Assumptions C45_value.
Print Assumptions C45_lazy.
