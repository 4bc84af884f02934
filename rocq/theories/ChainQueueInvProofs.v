(** The queue of assemblies stays in step with the chains. *)
From Verif Require Import Base ISort ForcedModel ChainModel ChainSpec ChainAsmProofs ChainEdgeProofs ChainConsumeProofs ChainMergeProofs ChainMergeWfProofs ChainStepProofs ChainScoreProofs ChainBuildModel ChainEdgeInitProofs ChainQueueProofs.

Lemma pair_reflect (a b : Z * Z) : reflect (a = b) (pair_eqb a b).
Proof.
  unfold pair_eqb. destruct a as [a1 a2], b as [b1 b2]. cbn [fst snd]. destruct (Z.eqb_spec a1 b1) as [Q1|Q1], (Z.eqb_spec a2 b2) as [Q2|Q2]; cbn [andb]; constructor; congruence.
Qed.
Lemma aget_rm k k2 (q : queue) : aget pair_eqb k2 (aremove pair_eqb k q) = if pair_eqb k2 k then None else aget pair_eqb k2 q.
Proof.
  induction q as [|[k' v] q IH]; cbn [aremove aget]; [destruct (pair_eqb k2 k); reflexivity|].
  destruct (pair_reflect k k') as [Q|Q].
  - rewrite IH. destruct (pair_reflect k2 k) as [Q2|Q2]; [reflexivity|]. destruct (pair_reflect k2 k'); [congruence|reflexivity].
  - cbn [aget]. rewrite IH. destruct (pair_reflect k2 k') as [Q2|Q2]; [|reflexivity]. destruct (pair_reflect k2 k); [congruence|reflexivity].
Qed.
Lemma keys_rm k (q : queue) : NoDup (akeys q) -> NoDup (akeys (aremove pair_eqb k q)).
Proof.
  induction q as [|[k' v] q IH]; intros ND; cbn [aremove]; [exact ND|]. change (akeys ((k', v) :: q)) with (k' :: akeys q) in ND. inversion ND as [|? ? Hn ND']; subst.
  destruct (pair_eqb k k'); [auto|]. change (akeys ((k', v) :: aremove pair_eqb k q)) with (k' :: akeys (aremove pair_eqb k q)). constructor; [|auto].
  intros X. apply Hn. clear - X. induction q as [|[k2 w] q IH]; cbn [aremove] in X; [exact X|]. change (akeys ((k2, w) :: q)) with (k2 :: akeys q).
  destruct (pair_eqb k k2); [right; auto|]. change (akeys ((k2, w) :: aremove pair_eqb k q)) with (k2 :: akeys (aremove pair_eqb k q)) in X. destruct X as [X|X]; [left; exact X|right; auto].
Qed.

Definition conn (st : state) (x y : Z) : Prop := out st x y <> None \/ out st y x <> None.
Definition asm_ok (E : env) (EV : list cedge) (srt : Prop) (st : state) (x y : Z) (a : assembly) : Prop :=
  exists cs cu, get_chain st x = Some cs /\ get_chain st y = Some cu /\ x <> y /\ asm_for E EV srt cs cu a.
(** [X]: the pairs whose assembly may be out of date. *)
Definition qinv (E : env) (EV : list cedge) (srt : Prop) (X : Z -> Z -> Prop) (st : state) (q : queue) : Prop :=
  NoDup (akeys q) /\ forall x y a, aget pair_eqb (x, y) q = Some a -> X x y \/ (asm_ok E EV srt st x y a /\ conn st x y).
Lemma qinv_weaken E EV srt (X Y : Z -> Z -> Prop) st q : (forall x y, X x y -> Y x y) -> qinv E EV srt X st q -> qinv E EV srt Y st q.
Proof. intros H [A B]. split; [exact A|]. intros x y a Q. destruct (B x y a Q); auto. Qed.

Section Upd.
  Context (E : env) (EV : list cedge) (st : state) (W : wf E EV st) (SZ : forall n, 0 <= e_size E n)
          (VO : forall n e, In n (all_nodes st) -> In e (e_outs E n) -> e_visit E e = true -> In (ce_sink e) (all_nodes st))
          (VI : forall n e, In n (all_nodes st) -> In e (e_ins E n) -> e_visit E e = true -> In (ce_src e) (all_nodes st))
          (srt : Prop) (SO : srt -> sorted st).
  Lemma update_ok X q s u : qinv E EV srt X st q -> conn st s u ->
    exists q', UpdateNodeChainAssembly E st q s u = Ok q' /\ qinv E EV srt (fun x y => X x y /\ ~ (x = s /\ y = u)) st q'.
  Proof.
    intros [QN QI] C. unfold UpdateNodeChainAssembly.
    assert (LS : exists cs, get_chain st s = Some cs).
    { destruct C as [C|C]; [|exact (w_live _ _ _ W _ _ C)]. unfold out in C. destruct (get_chain st s); [eauto|congruence]. }
    assert (LU : exists cu, get_chain st u = Some cu).
    { destruct C as [C|C]; [exact (w_live _ _ _ W _ _ C)|]. unfold out in C. destruct (get_chain st u); [eauto|congruence]. }
    destruct LS as [cs Gs], LU as [cu Gu]. rewrite Gs, Gu. destruct (get_In _ _ _ Gs) as [Hs Is]. destruct (get_In _ _ _ Gu) as [Hu Iu].
    assert (NE : s <> u) by (intros ->; pose proof (w_self _ _ _ W u); destruct C; congruence).
    assert (NE' : c_id cs <> c_id cu) by congruence.
    destruct (best_assembly_ok E EV st W SZ VO VI cs cu Hs Hu NE' srt (fun z => SO z cs Hs)) as [r [-> R]]. cbn [obind].
    destruct r as [a|]; eexists; (split; [reflexivity|]); (split; [|]).
    - apply NoDup_akeys_aset; [apply pair_reflect|exact QN].
    - intros x y b. rewrite (aget_aset pair_eqb pair_reflect). destruct (pair_reflect (x, y) (s, u)) as [Q|Q].
      + injection Q as -> ->. intros QB. injection QB as <-. right. split; [|exact C]. exists cs, cu. specialize (R a eq_refl). auto.
      + intros H. destruct (QI x y b H) as [H1|H1]; [left|right; exact H1]. split; [exact H1|]. intros [-> ->]. congruence.
    - apply keys_rm. exact QN.
    - intros x y b. rewrite aget_rm. destruct (pair_reflect (x, y) (s, u)) as [Q|Q]; [discriminate|].
      intros H. destruct (QI x y b H) as [H1|H1]; [left|right; exact H1]. split; [exact H1|]. intros [-> ->]. congruence.
  Qed.
  Lemma conn_sym x y : conn st x y <-> conn st y x. Proof. unfold conn. tauto. Qed.
  Lemma candidates_ok s c u : get_chain st s = Some c -> (In u (candidates c) <-> conn st s u).
  Proof.
    intros G. unfold candidates, conn. rewrite in_app_iff, filter_In.
    assert (A : In u (c_in c) <-> out st u s <> None) by (rewrite <- (w_inout _ _ _ W u s); unfold inn; rewrite G; reflexivity).
    assert (B : In u (akeys (c_out c)) <-> out st s u <> None).
    { unfold out. rewrite G. pose proof (aget_None_iff Z.eqb Z_eqb_reflect u (c_out c)) as N. destruct (aget Z.eqb u (c_out c)) eqn:Q.
      - split; [discriminate|]. intros _. apply aget_In in Q; [|exact Z_eqb_reflect]. apply in_map_iff. exists (u, l). auto.
      - destruct N as [N _]. specialize (N eq_refl). tauto. }
    rewrite A, B. split; [tauto|]. intros [H|H]; [|tauto]. destruct (existsb (Z.eqb u) (c_in c)) eqn:M; [|right; auto].
    apply existsb_exists in M as [z [M1 M2]]. apply Z.eqb_eq in M2. subst z. left. apply A. exact M1.
  Qed.
  Lemma update_each_ok us : forall X q s, qinv E EV srt X st q -> (forall u, In u us -> conn st s u) ->
    exists q', update_each E st q s us = Ok q' /\ qinv E EV srt X st q'.
  Proof.
    induction us as [|u us IH]; intros X q s Q C; cbn [update_each]; [eauto|].
    destruct (update_ok X q s u Q) as [q1 [-> Q1]]; [apply C; left; reflexivity|]. cbn [obind]. apply IH; [|intros; apply C; right; assumption].
    eapply qinv_weaken; [|exact Q1]. cbv beta. tauto.
  Qed.
  Lemma update_both_ok us : forall X q s, qinv E EV srt X st q -> (forall u, In u us -> conn st s u) ->
    exists q', update_both E st q s us = Ok q' /\ qinv E EV srt (fun x y => X x y /\ ~ (x = s /\ In y us) /\ ~ (y = s /\ In x us)) st q'.
  Proof.
    induction us as [|u us IH]; intros X q s Q C; cbn [update_both].
    - exists q. split; [reflexivity|]. eapply qinv_weaken; [|exact Q]. cbn [In]. tauto.
    - destruct (update_ok X q s u Q) as [q1 [-> Q1]]; [apply C; left; reflexivity|]. cbn [obind].
      destruct (update_ok _ q1 u s Q1) as [q2 [-> Q2]]; [apply conn_sym, C; left; reflexivity|]. cbn [obind].
      destruct (IH _ q2 s Q2) as [q3 [-> Q3]]; [intros; apply C; right; assumption|]. exists q3. split; [reflexivity|].
      eapply qinv_weaken; [|exact Q3]. cbv beta. cbn [In]. intros x y [[[A B] D] [F G]]. split; [exact A|]. split; intros [K [L|L]]; subst; auto.
  Qed.
  Lemma init_assemblies_ok (P : prog) (OP : forall l, Permutation (p_ord P l) l) ids : forall q, qinv E EV srt (fun _ _ => False) st q -> (forall i, In i ids -> live st i) ->
    exists q', init_assemblies P E st q ids = Ok q' /\ qinv E EV srt (fun _ _ => False) st q'.
  Proof.
    induction ids as [|i ids IH]; intros q Q L; cbn [init_assemblies]; [eauto|].
    destruct (L i (or_introl eq_refl)) as [c G]. rewrite G.
    destruct (update_each_ok (p_ord P (candidates c)) _ q i Q) as [q1 [-> Q1]].
    { intros u Hu. apply (Permutation_in _ (OP _)) in Hu. apply (candidates_ok i c u G). exact Hu. }
    cbn [obind]. apply IH; [exact Q1|]. intros; apply L; right; assumption.
  Qed.
  Lemma init_assemblies_all (P : prog) (OP : forall l, Permutation (p_ord P l) l) : exists q, InitChainAssemblies P E st = Ok q /\ qinv E EV srt (fun _ _ => False) st q.
  Proof.
    unfold InitChainAssemblies. apply init_assemblies_ok; [exact OP|split; [constructor|intros x y a H; discriminate]|].
    intros i Hi. apply (Permutation_in _ (OP _)) in Hi. apply live_ids. exact Hi.
  Qed.
End Upd.

Lemma remove_pairs_ok d cands : forall q, NoDup (akeys q) -> NoDup (akeys (remove_pairs q d cands)) /\
  forall x y a, aget pair_eqb (x, y) (remove_pairs q d cands) = Some a -> aget pair_eqb (x, y) q = Some a /\ ~ (x = d /\ In y cands) /\ ~ (y = d /\ In x cands).
Proof.
  unfold remove_pairs. induction cands as [|z cands IH]; intros q ND; cbn [fold_left].
  - split; [exact ND|]. cbn [In]. intros x y a H. tauto.
  - destruct (IH (aremove pair_eqb (z, d) (aremove pair_eqb (d, z) q))) as [A B]; [do 2 apply keys_rm; exact ND|]. split; [exact A|].
    intros x y a H. apply B in H as [H [N1 N2]]. rewrite !aget_rm in H. destruct (pair_reflect (x, y) (z, d)) as [Q1|Q1]; [discriminate|]. destruct (pair_reflect (x, y) (d, z)) as [Q2|Q2]; [discriminate|].
    split; [exact H|]. cbn [In]. split; intros [K [L|L]]; subst; auto; congruence.
Qed.
Lemma best_of_In q a : best_of q = Some a -> exists k : Z * Z, In (k, a) q.
Proof.
  unfold best_of. assert (X : forall (l : queue) acc, fold_left (fun acc ka => match acc with None => Some (snd ka) | Some b => if asm_ltb b (snd ka) then Some (snd ka) else Some b end) l acc = Some a ->
    acc = Some a \/ exists k : Z * Z, In (k, a) l).
  { induction l as [|[k b] l IH]; intros acc H; cbn [fold_left snd] in H; [auto|]. apply IH in H as [H|[k' H]]; [|right; exists k'; right; exact H].
    destruct acc as [b0|]; [destruct (asm_ltb b0 b)|]; try (left; exact H); injection H as ->; right; exists k; left; reflexivity. }
  intros H. apply X in H as [H|H]; [discriminate|exact H].
Qed.
