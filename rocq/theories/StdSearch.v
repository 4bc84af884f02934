(** std::upper_bound on an indexed sequence (no code of /repo is modelled
    here; used by the models of code that calls it). *)
From Verif Require Import Base.

(** The usual halving loop: [above i] is comp(value, element i); the search
    covers the [len] elements from index [first].  [fuel] bounds the number of
    iterations; [len] is enough. *)
Fixpoint ub_loop (fuel : nat) (above : nat -> bool) (first len : nat) : nat :=
  match fuel with
  | O => first
  | S fuel' =>
      match len with
      | O => first
      | _ =>
          let half := (len / 2)%nat in
          let mid := (first + half)%nat in
          if above mid then ub_loop fuel' above first half
          else ub_loop fuel' above (S mid) (len - half - 1)
      end
  end.
Definition upper_bound (above : nat -> bool) (n : nat) : nat := ub_loop n above 0 n.

Lemma ub_loop_spec fuel above first len r :
  (len <= fuel)%nat ->
  (forall i j, (i <= j < first + len)%nat -> above i = true -> above j = true) ->
  ub_loop fuel above first len = r ->
  (forall i, (i < first)%nat -> above i = false) ->
  (first <= r <= first + len)%nat /\
  (forall i, (i < r)%nat -> above i = false) /\
  ((r < first + len)%nat -> above r = true).
Proof.
  revert first len r. induction fuel as [|fuel IH]; intros first len r Hf Hm Hr Hl; cbn [ub_loop] in Hr.
  - assert (len = O) by lia. subst. split; [lia|]. split; [exact Hl|lia].
  - destruct len as [|len']; [subst; split; [lia|]; split; [exact Hl|lia]|].
    set (len := S len') in *. set (half := (len / 2)%nat) in *.
    assert (Hh : (half < len)%nat) by (apply Nat.div_lt; unfold len; lia).
    destruct (above (first + half)%nat) eqn:E.
    + destruct (IH first half r) as [A [B C]]; try assumption; [lia| |].
      { intros i j Hij. apply Hm; lia. }
      split; [lia|]. split; [exact B|]. intros Hlt.
      destruct (Nat.eq_dec r (first + half)) as [->|Hne]; [exact E|apply C; lia].
    + destruct (IH (S (first + half)) (len - half - 1)%nat r) as [A [B C]]; try assumption; [lia| | |].
      { intros i j Hij. apply Hm; lia. }
      { intros i Hi. destruct (above i) eqn:Ei; [|reflexivity].
        assert (above (first + half)%nat = true) by (apply (Hm i); [lia|exact Ei]). congruence. }
      split; [lia|]. split; [exact B|]. intros Hlt. apply C; lia.
Qed.

(** The contract of std::upper_bound on a partitioned sequence. *)
Lemma upper_bound_spec above n :
  (forall i j, (i <= j < n)%nat -> above i = true -> above j = true) ->
  (upper_bound above n <= n)%nat /\
  (forall i, (i < upper_bound above n)%nat -> above i = false) /\
  (forall i, (upper_bound above n <= i < n)%nat -> above i = true).
Proof.
  intros Hm. destruct (ub_loop_spec n above 0 n (upper_bound above n)) as [A [B C]]; auto.
  - intros i Hi. lia.
  - split; [lia|]. split; [exact B|]. intros i Hi. apply (Hm (upper_bound above n)); [lia|]. apply C; lia.
Qed.

Lemma ub_loop_le above : forall fuel first len, (len <= fuel)%nat ->
  (ub_loop fuel above first len <= first + len)%nat.
Proof.
  induction fuel as [|fuel IH]; intros first len Hf; cbn [ub_loop]; [lia|].
  destruct len as [|len']; [lia|]. set (len := S len') in *.
  assert (Hh : (len / 2 < len)%nat) by (apply Nat.div_lt; unfold len; lia).
  destruct (above _).
  - specialize (IH first (len/2)%nat ltac:(lia)). lia.
  - specialize (IH (S (first + len/2)) (len - len/2 - 1)%nat ltac:(lia)). lia.
Qed.
Lemma upper_bound_le above n : (upper_bound above n <= n)%nat.
Proof. apply (ub_loop_le above n 0 n). lia. Qed.
