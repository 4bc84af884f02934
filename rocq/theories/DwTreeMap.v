(** Inserting nested ranges, inner ones first. *)
From Coq Require Import Sorted Permutation.
From Verif Require Import Base ISort RangeMapModel RangeMapProofs.

Section Map.
Context {T : Type}.
Implicit Types (m : list (rentry T)) (e : rentry T).
Lemma map_insert_In m e m' : map_insert m e = Some m' -> forall x, In x m' -> x = e \/ In x m.
Proof.
  revert m'. induction m as [|y m IH]; intros m' H x Hx; cbn [map_insert] in H.
  - injection H as <-. destruct Hx as [->|[]]. left. reflexivity.
  - destruct (rlo y <? rlo e).
    + destruct (map_insert m e) as [m1|] eqn:E; [|discriminate H]. injection H as <-. destruct Hx as [->|Hx]; [right; left; reflexivity|]. destruct (IH m1 eq_refl x Hx) as [A|A]; [left; exact A|right; right; exact A].
    + destruct (rlo e <? rlo y); [|discriminate H]. injection H as <-. destruct Hx as [->|Hx]; [left; reflexivity|right; exact Hx].
Qed.
Lemma checked_insert_In m e m' : checked_insert m e = Ok m' -> forall x, In x m' -> x = e \/ In x m.
Proof. unfold checked_insert. destruct (map_insert m e) eqn:E; [|discriminate]. intros H. injection H as <-. apply map_insert_In. exact E. Qed.
Lemma fill_gaps_In low0 high v ip : Forall (fun e => low0 <= rhi e) ip -> forall m low m', low0 <= low -> fill_gaps m ip low high v = Ok m' -> forall x, In x m' -> In x m \/ (low0 <= rlo x /\ rhi x <= high).
Proof.
  induction 1 as [|e ip F1 F2 IH]; intros m low m' L H x Hx; cbn [fill_gaps] in H.
  - destruct (Z.ltb_spec low high); [|injection H as <-; left; exact Hx]. destruct (map_insert m (low, high, v)) as [m1|] eqn:E; injection H as <-; [|left; exact Hx]. destruct (map_insert_In _ _ _ E x Hx) as [->|A]; [right; cbn; lia|left; exact A].
  - destruct (Z.ltb_spec low high); [|injection H as <-; left; exact Hx].
    assert (G : exists m1, (m1 = m \/ checked_insert m ((low, Z.min high (rlo e)), v) = Ok m1) /\ fill_gaps m1 ip (Z.min high (rhi e)) high v = Ok m').
    { destruct (low =? rlo e); [exists m; split; [left; reflexivity|exact H]|]. cbv zeta in H. destruct ((Z.min high (rlo e) =? high) || (rhi e <=? high)); [|discriminate H]. destruct (low <? Z.min high (rlo e)); [|discriminate H].
      destruct (checked_insert m (low, Z.min high (rlo e), v)) as [m1| |] eqn:E; [|discriminate H|discriminate H]. exists m1. split; [right; reflexivity|exact H]. }
    destruct G as (m1 & G1 & G2). destruct (IH m1 (Z.min high (rhi e)) m' ltac:(lia) G2 x Hx) as [A|A]; [|right; exact A]. destruct G1 as [->|G1]; [left; exact A|]. destruct (checked_insert_In _ _ _ G1 x A) as [->|B]; [right; cbn; lia|left; exact B].
Qed.
(** what is stored after an insertion is part of what was stored, or of the new
    range *)
Definition part_of (r : Z * Z) e : Prop := fst r <= rlo e /\ rhi e <= snd r.
Lemma split_In before s after low high v m' : SplitRange before s after low high v = Ok m' -> rlo s <= low < high -> high <= rhi s -> forall x, In x m' -> In x (before ++ after) \/ part_of (fst s) x \/ part_of (low, high) x.
Proof.
  intros H L1 L2 x Hx. unfold SplitRange in H. unfold part_of. cbn [fst snd]. change (fst (fst s)) with (rlo s). change (snd (fst s)) with (rhi s).
  destruct (if low =? rlo s then Ok (before ++ after) else checked_insert (before ++ after) (rlo s, low, rval s)) as [m1| |] eqn:E1; [|discriminate H|discriminate H]. cbn [obind] in H.
  destruct (checked_insert m1 (low, high, v)) as [m2| |] eqn:E2; [|discriminate H|discriminate H]. cbn [obind] in H.
  assert (A1 : forall x, In x m1 -> In x (before ++ after) \/ x = (rlo s, low, rval s)).
  { intros y Hy. destruct (low =? rlo s); [injection E1 as <-; left; exact Hy|]. destruct (checked_insert_In _ _ _ E1 y Hy) as [->|B]; [right; reflexivity|left; exact B]. }
  assert (A3 : forall y, In y m' -> y = (high, rhi s, rval s) \/ In y m2).
  { intros y Hy. destruct (high =? rhi s); [injection H as <-; right; exact Hy|]. apply (checked_insert_In _ _ _ H y Hy). }
  destruct (A3 x Hx) as [->|B3]; [right; left; unfold rlo, rhi in *; cbn [fst snd] in *; lia|].
  destruct (checked_insert_In _ _ _ E2 x B3) as [->|B2]; [right; right; unfold rlo, rhi; cbn [fst snd]; lia|]. destruct (A1 x B2) as [B|B]; [left; exact B|]. subst x. right. left. unfold rlo, rhi in *. cbn [fst snd] in *. lia.
Qed.
Lemma insert_parts m b low high v m' : wfb b m -> low < high -> InsertRange m low high v = Ok m' -> forall x, In x m' -> (exists e, In e m /\ part_of (fst e) x) \/ part_of (low, high) x.
Proof.
  intros W L H x Hx. unfold InsertRange in H. destruct (Z.eqb_spec low high); [lia|]. destruct (lower_bound m low) as [pre ip] eqn:E. destruct (lower_bound_spec _ _ _ _ _ W E) as (-> & P & S). clear E.
  assert (SELF : forall e, part_of (fst e) e) by (intros e; unfold part_of, rlo, rhi; lia).
  assert (SPL : forall before s after, In s (pre ++ ip) -> incl (before ++ after) (pre ++ ip) -> strictly_contains (fst s) (low, high) = true -> SplitRange before s after low high v = Ok m' -> (exists e, In e (pre ++ ip) /\ part_of (fst e) x) \/ part_of (low, high) x).
  { intros before s after Hs IC SC HS. apply strictly_contains_true in SC. cbn [fst snd] in SC. destruct (split_In before s after low high v m' HS) with (x := x) as [A|[A|A]]; [unfold rlo; lia|unfold rhi; lia|exact Hx| | |].
    - left. exists x. split; [apply IC; exact A|apply SELF].
    - left. exists s. split; assumption.
    - right. exact A. }
  assert (FG : fill_gaps (pre ++ ip) ip low high v = Ok m' -> (exists e, In e (pre ++ ip) /\ part_of (fst e) x) \/ part_of (low, high) x).
  { intros HF. pose proof (wfb_Forall _ _ W) as WF. destruct (fill_gaps_In low high v ip) with (m := pre ++ ip) (low := low) (m' := m') (x := x) as [A|A]; [|lia|exact HF|exact Hx| |].
    - rewrite Forall_forall in *. intros e He. specialize (S e He). specialize (WF e ltac:(apply in_or_app; right; exact He)). cbv beta in *. lia.
    - left. exists x. split; [exact A|apply SELF].
    - right. unfold part_of. cbn [fst snd]. exact A. }
  assert (AT : match ip with e :: ip' => if strictly_contains (fst e) (low, high) then SplitRange pre e ip' low high v else fill_gaps (pre ++ ip) ip low high v | [] => fill_gaps (pre ++ ip) ip low high v end = Ok m' -> (exists e, In e (pre ++ ip) /\ part_of (fst e) x) \/ part_of (low, high) x).
  { intros HA. destruct ip as [|e ip']; [apply FG; exact HA|]. destruct (strictly_contains (fst e) (low, high)) eqn:SC; [|apply FG; exact HA]. apply (SPL pre e ip'); [apply in_or_app; right; left; reflexivity| |exact SC|exact HA]. intros y Hy. apply in_app_or in Hy. apply in_or_app. destruct Hy; [left|right; right]; assumption. }
  destruct (rev pre) as [|p rest] eqn:ER; [apply AT; exact H|]. assert (EP : pre = rev rest ++ [p]) by (rewrite <- (rev_involutive pre), ER; reflexivity).
  destruct (strictly_contains (fst p) (low, high)) eqn:SC.
  - apply (SPL (rev rest) p ip); [rewrite EP; apply in_or_app; left; apply in_or_app; right; left; reflexivity| |exact SC|exact H]. intros y Hy. rewrite EP. apply in_app_or in Hy. apply in_or_app. destruct Hy; [left; apply in_or_app; left|right]; assumption.
  - destruct (rhi p <=? low); [apply AT; exact H|discriminate H].
Qed.

(** the map after ranges [done] *)
Definition stored (done : list (Z * Z)) m : Prop := wfb 0 m /\ forall e, In e m -> exists r, In r done /\ part_of r e.
Definition val m (a : Z) : option T := option_map rval (lk m a).
(** a new range that is disjoint from what is there or around it *)
Definition apart (r q : Z * Z) : Prop := snd r <= fst q \/ snd q <= fst r.
Definition around (q r : Z * Z) : Prop := fst q <= fst r /\ snd r <= snd q.
Lemma insert_outer done m q v : stored done m -> 0 <= fst q < snd q -> (forall r, In r done -> apart r q \/ around q r) ->
  exists m', InsertRange m (fst q) (snd q) v = Ok m' /\ stored (done ++ [q]) m' /\ forall a, val m' a = match val m a with Some x => Some x | None => if (fst q <=? a) && (a <? snd q) then Some v else None end.
Proof.
  intros (W & PT) B AP. destruct (InsertRange_spec m 0 (fst q) (snd q) v W ltac:(lia) ltac:(lia)) as (_ & A & _).
  assert (E : forall e, In e m -> rlo e < rhi e /\ (rhi e <= fst q \/ snd q <= rlo e \/ (fst q <= rlo e /\ rhi e <= snd q))).
  { intros e He. pose proof (wfb_In _ _ _ W He) as R. split; [lia|]. destruct (PT e He) as (r & Hr & P1 & P2). destruct (AP r Hr) as [[C|C]|(C & D)]; lia. }
  destruct A as (m' & HI & W' & V).
  - intros (e & He & C & D & F). specialize (E e He). lia.
  - intros (e & He & C). specialize (E e He). lia.
  - exists m'. split; [exact HI|]. split.
    + split; [exact W'|]. intros x Hx. destruct (insert_parts m 0 (fst q) (snd q) v m' W ltac:(lia) HI x Hx) as [(e & He & C)|C].
      * destruct (PT e He) as (r & Hr & D). exists r. split; [apply in_or_app; left; exact Hr|]. unfold part_of, rlo, rhi in *. lia.
      * exists q. split; [apply in_or_app; right; left; reflexivity|]. unfold part_of in *. cbn [fst snd] in C. lia.
    + intros a. unfold val. rewrite V. destruct (lk m a); reflexivity.
Qed.
Definition cov (rs : list (Z * Z)) (a : Z) : bool := existsb (fun q => (fst q <=? a) && (a <? snd q)) rs.
Lemma insert_list rs : forall done m v, stored done m -> StronglySorted (fun r r' : Z * Z => snd r <= fst r') rs -> Forall (fun q => 0 <= fst q < snd q) rs -> (forall r q, In r done -> In q rs -> apart r q \/ around q r) ->
  exists m', InsertRangeList m rs v = Ok m' /\ stored (done ++ rs) m' /\ forall a, val m' a = match val m a with Some x => Some x | None => if cov rs a then Some v else None end.
Proof.
  induction rs as [|q rs IH]; intros done m v ST SO FA AP; cbn [InsertRangeList].
  - exists m. split; [reflexivity|]. rewrite app_nil_r. split; [exact ST|]. intros a. cbn [cov existsb]. destruct (val m a); reflexivity.
  - inversion SO as [|? ? S1 S2]; subst. inversion FA as [|? ? F1 F2]; subst. rewrite Forall_forall in S2. destruct (insert_outer done m q v ST F1 ltac:(intros r Hr; apply AP; [exact Hr|left; reflexivity])) as (m1 & E1 & ST1 & V1). destruct q as [lo hi]. cbn [fst snd] in E1. rewrite E1. cbn [obind].
    destruct (IH (done ++ [(lo, hi)]) m1 v ST1 S1 F2) as (m2 & E2 & ST2 & V2).
    + intros r q Hr Hq. apply in_app_or in Hr. destruct Hr as [Hr|[<-|[]]]; [apply AP; [exact Hr|right; exact Hq]|]. left. left. apply S2. exact Hq.
    + exists m2. split; [exact E2|]. rewrite <- app_assoc in ST2. split; [exact ST2|]. intros a. rewrite V2, V1. cbn [cov existsb fst snd]. destruct (val m a); [reflexivity|]. destruct ((lo <=? a) && (a <? hi)); reflexivity.
Qed.
End Map.
