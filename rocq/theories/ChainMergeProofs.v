(** Proofs about NodeChain::MergeWith: the invariant of the chain data. *)
From Verif Require Import Base ISort ForcedModel ChainModel ChainSpec ChainAsmProofs ChainEdgeProofs ChainConsumeProofs.

Definition all_nodes (st : state) : list Z := flat_map chain_nodes (s_chains st).
Definition all_bundles (st : state) : list bundle := flat_map c_bundles (s_chains st).

Record wf (E : env) (EV : list cedge) (st : state) : Prop := Wf {
  w_ids : NoDup (map c_id (s_chains st));
  w_nodes : NoDup (all_nodes st);
  w_bids : NoDup (map b_id (all_bundles st));
  w_chain : forall c, In c (s_chains st) -> chain_ok E c;
  w_map : mapok E (s_map st) (all_bundles st);
  w_out : forall c d, In c (s_chains st) -> In d (s_chains st) -> c_id c <> c_id d ->
    Permutation (outs c d) (filter (from_to (chain_nodes c) (chain_nodes d)) EV);
  w_self : forall x, out st x x = None;
  w_keys : keys_ok st;
  w_live : forall x y, out st x y <> None -> live st y;
  w_inout : forall x y, inn st x y <-> out st x y <> None;
  w_intra : forall c, In c (s_chains st) ->
    Permutation (flat_map b_edges (c_bundles c)) (filter (fun e => inside (chain_nodes c) e && apartm (s_map st) e) EV);
  w_src : srcok (all_bundles st) }.

(** * Generalities *)
Lemma filter_or_perm {A} (p q r : A -> bool) l : (forall x, In x l -> p x && q x = false) -> (forall x, In x l -> r x = p x || q x) ->
  Permutation (filter p l ++ filter q l) (filter r l).
Proof.
  induction l as [|x l IH]; intros D R; cbn [filter app]; [constructor|].
  assert (IH' : Permutation (filter p l ++ filter q l) (filter r l)) by (apply IH; intros; [apply D|apply R]; right; assumption).
  specialize (D x (or_introl eq_refl)). specialize (R x (or_introl eq_refl)). rewrite R.
  destruct (p x), (q x); cbn [orb andb] in *; try discriminate; cbn [app].
  - constructor. exact IH'.
  - eapply perm_trans; [apply Permutation_sym, Permutation_middle|]. constructor. exact IH'.
  - exact IH'.
Qed.
Lemma filter_filter {A} (p q : A -> bool) l : filter p (filter q l) = filter (fun x => q x && p x) l.
Proof. induction l as [|x l IH]; [reflexivity|]. cbn [filter]. destruct (q x); cbn [filter andb]; rewrite IH; reflexivity. Qed.
Lemma Permutation_filter {A} (p : A -> bool) l k : Permutation l k -> Permutation (filter p l) (filter p k).
Proof.
  induction 1; cbn [filter]; [constructor| | |eapply perm_trans; eassumption].
  - destruct (p x); [constructor|]; assumption.
  - destruct (p x), (p y); try apply Permutation_refl. apply perm_swap.
Qed.
Lemma Permutation_flat_map {A B} (f : A -> list B) l k : Permutation l k -> Permutation (flat_map f l) (flat_map f k).
Proof.
  induction 1; cbn [flat_map]; [constructor| | |eapply perm_trans; eassumption].
  - apply Permutation_app_head. assumption.
  - rewrite !app_assoc. apply Permutation_app_tail, Permutation_app_comm.
Qed.
Lemma tot_perm sz l k : Permutation l k -> tot sz l = tot sz k.
Proof. intros H. exact (sumf_perm sz l k H). Qed.
Lemma memz_perm n l k : Permutation l k -> memz n l = memz n k.
Proof.
  intros H. destruct (memz n k) eqn:Q.
  - apply memz_In in Q. apply memz_In. eapply Permutation_in; [apply Permutation_sym; exact H|exact Q].
  - apply memz_false in Q. apply memz_false. intros X. apply Q. eapply Permutation_in; eassumption.
Qed.
Lemma two_out (l : list chain) a b : NoDup (map c_id l) -> In a l -> In b l -> c_id a <> c_id b ->
  Permutation l (a :: b :: filter (fun c => negb (c_id c =? c_id a) && negb (c_id c =? c_id b)) l).
Proof.
  intros ND Ha Hb NE.
  assert (K : forall x k, NoDup (map c_id k) -> In x k -> Permutation k (x :: filter (fun c => negb (c_id c =? c_id x)) k)).
  { clear. intros x k. induction k as [|y k IH]; intros ND H; [destruct H|]. cbn [map] in ND. inversion ND as [|? ? Hn ND']; subst. cbn [filter]. destruct H as [->|H].
    - rewrite Z.eqb_refl. cbn [negb]. constructor.
      assert (Q : filter (fun c => negb (c_id c =? c_id x)) k = k).
      { clear - Hn. induction k as [|z k IH]; [reflexivity|]. cbn [filter map In] in *. destruct (Z.eqb_spec (c_id z) (c_id x)); [exfalso; apply Hn; auto|].
        cbn [negb]. rewrite IH; tauto. }
      rewrite Q. apply Permutation_refl.
    - destruct (Z.eqb_spec (c_id y) (c_id x)) as [Q|Q]; [exfalso; apply Hn; rewrite Q; apply in_map; exact H|]. cbn [negb].
      eapply perm_trans; [constructor; apply IH; assumption|apply perm_swap]. }
  assert (H1 := K a l ND Ha). eapply perm_trans; [exact H1|]. constructor.
  set (l' := filter (fun c => negb (c_id c =? c_id a)) l) in *.
  assert (H2 : In b l').
  { apply filter_In. split; [exact Hb|]. apply negb_true_iff, Z.eqb_neq. congruence. }
  assert (ND2 : NoDup (map c_id l')).
  { pose proof (Permutation_NoDup (Permutation_map c_id H1) ND) as X. cbn [map] in X. inversion X; assumption. }
  assert (H3 := K b l' ND2 H2). unfold l' in H3 at 2. rewrite filter_filter in H3. exact H3.
Qed.

(** * Bundles *)
Lemma asm_bundles_perm cs cu o p : valid_cut cs o p -> Permutation (asm_bundles cs cu (ConstructSlices cs cu o p)) (c_bundles cs ++ c_bundles cu).
Proof.
  intros V. unfold asm_bundles, ConstructSlices.
  assert (F : sl_bundles cs cu (Slice true 0 (length (c_bundles cs))) = c_bundles cs) by (unfold sl_bundles; cbn [sl_split sl_chain sl_begin sl_end]; rewrite Nat.sub_0_r; apply firstn_all).
  assert (U : sl_bundles cs cu (Slice false 0 (length (c_bundles cu))) = c_bundles cu) by (unfold sl_bundles; cbn [sl_split sl_chain sl_begin sl_end]; rewrite Nat.sub_0_r; apply firstn_all).
  assert (S1 : forall k, sl_bundles cs cu (Slice true 0 k) = firstn k (c_bundles cs)) by (intros k; unfold sl_bundles; cbn [sl_split sl_chain sl_begin sl_end]; rewrite Nat.sub_0_r; reflexivity).
  assert (S2 : forall k, sl_bundles cs cu (Slice true k (length (c_bundles cs))) = skipn k (c_bundles cs)).
  { intros k; unfold sl_bundles; cbn [sl_split sl_chain sl_begin sl_end]. apply firstn_all2. rewrite skipn_length. lia. }
  destruct o, p as [p|]; cbn in V; try (exfalso; exact V); cbn [flat_map]; rewrite ?F, ?U, ?S1, ?S2, ?app_nil_r.
  - apply Permutation_refl.
  - rewrite app_assoc. apply Permutation_app_tail. rewrite <- (firstn_skipn (Z.to_nat p) (c_bundles cs)) at 3. apply Permutation_app_comm.
  - rewrite <- (firstn_skipn (Z.to_nat p) (c_bundles cs)) at 3. rewrite <- app_assoc. apply Permutation_app_head, Permutation_app_comm.
  - eapply perm_trans; [apply Permutation_app_comm|]. apply Permutation_app_tail. rewrite <- (firstn_skipn (Z.to_nat p) (c_bundles cs)) at 3. apply Permutation_app_comm.
  - rewrite <- (firstn_skipn (Z.to_nat p) (c_bundles cs)) at 3. eapply perm_trans; [apply Permutation_app_comm|]. rewrite <- !app_assoc.
    eapply perm_trans; [apply Permutation_app_comm|]. rewrite <- app_assoc. apply Permutation_refl.
Qed.
Lemma push_b_shape mp es b : b_id (push_b mp es b) = b_id b /\ b_nodes (push_b mp es b) = b_nodes b. Proof. split; reflexivity. Qed.
Lemma flat_map_map {A B C} (f : B -> list C) (g : A -> B) l : flat_map f (map g l) = flat_map (fun x => f (g x)) l.
Proof. induction l as [|x l IH]; [reflexivity|]. cbn [map flat_map]. rewrite IH. reflexivity. Qed.
Lemma flat_map_ext_eq {A B} (f g : A -> list B) l : (forall x, f x = g x) -> flat_map f l = flat_map g l.
Proof. intros H. induction l as [|x l IH]; [reflexivity|]. cbn [flat_map]. rewrite H, IH. reflexivity. Qed.
Lemma push_nodes mp es bs : flat_map b_nodes (map (push_b mp es) bs) = flat_map b_nodes bs.
Proof. rewrite flat_map_map. apply flat_map_ext_eq. reflexivity. Qed.
Lemma push_edges_perm mp es bs : NoDup (map b_id bs) ->
  Permutation (flat_map b_edges (map (push_b mp es) bs)) (flat_map b_edges bs ++ filter (fun e => memz (srcbid mp e) (map b_id bs)) es).
Proof.
  induction bs as [|b bs IH]; intros ND; cbn [map flat_map].
  - cbn [memz existsb app]. assert (Q : filter (fun _ : cedge => false) es = []) by (clear; induction es; [reflexivity|assumption]). unfold memz; cbn [existsb]. rewrite Q. constructor.
  - cbn [map] in ND. inversion ND as [|? ? Hn ND']; subst. unfold push_b at 1. cbn [b_edges set_edges].
    rewrite <- !app_assoc. apply Permutation_app_head.
    eapply perm_trans; [apply Permutation_app_head, IH; exact ND'|].
    eapply perm_trans; [apply Permutation_app_swap_app|]. apply Permutation_app_head. apply filter_or_perm.
    + intros e _. destruct (Z.eqb_spec (srcbid mp e) (b_id b)) as [Q|Q]; [|reflexivity]. rewrite Q. cbn [andb]. apply memz_false. exact Hn.
    + intros e _. reflexivity.
Qed.
Lemma push_b_id mp es b : (forall e, In e es -> srcbid mp e <> b_id b) -> push_b mp es b = b.
Proof.
  intros H. unfold push_b. assert (Q : filter (fun e => srcbid mp e =? b_id b) es = []).
  { induction es as [|e es IH]; [reflexivity|]. cbn [filter]. destruct (Z.eqb_spec (srcbid mp e) (b_id b)) as [X|X]; [exfalso; apply (H e); [left; reflexivity|exact X]|].
    apply IH. intros; apply H; right; assumption. }
  rewrite Q, app_nil_r. apply set_edges_id.
Qed.
Lemma map_sl_bundles f cs cu s : let g c := set_bundles c (map f (c_bundles c)) in
  sl_bundles (g cs) (g cu) s = map f (sl_bundles cs cu s).
Proof.
  intros g. unfold sl_bundles, sl_chain, g. destruct (sl_split s); cbn [set_bundles c_bundles]; rewrite skipn_map, firstn_map; reflexivity.
Qed.
Lemma bundles_ok_map E cid F bs : (forall b, (b_chain (F b), b_index (F b), b_offset (F b), b_nodes (F b), b_size (F b), b_freq (F b)) =
    (b_chain b, b_index b, b_offset b, b_nodes b, b_size b, b_freq b)) ->
  forall idx off, bundles_ok E cid idx off bs -> bundles_ok E cid idx off (map F bs).
Proof.
  intros HF. induction bs as [|b bs IH]; intros idx off H; cbn [map]; [constructor|]. inversion H; subst. specialize (HF b). injection HF as F1 F2 F3 F4 F5 F6.
  constructor; try congruence. rewrite F5. apply IH. assumption.
Qed.
Lemma bundles_ok_sane E cid bs : forall idx off, bundles_ok E cid idx off bs -> Forall (bundle_sane E) bs.
Proof. induction bs as [|b bs IH]; intros idx off H; [constructor|]. inversion H; subst. constructor; [repeat split; assumption|eapply IH; eassumption]. Qed.

(** * The edges between chains *)
Definition appo (a b : option (list cedge)) : option (list cedge) := match b with Some es => app_opt a es | None => a end.
Definition lst (a : option (list cedge)) : list cedge := match a with Some es => es | None => [] end.
Lemma appo_lst a b : lst (appo a b) = lst a ++ lst b.
Proof. destruct a, b; cbn; rewrite ?app_nil_r; reflexivity. Qed.
Lemma appo_some a b : appo a b <> None <-> a <> None \/ b <> None.
Proof. destruct a, b; cbn; intuition congruence. Qed.
Lemma outs_out st c d : get_chain st (c_id c) = Some c -> outs c d = lst (out st (c_id c) (c_id d)).
Proof. intros H. unfold outs, out, lst. rewrite H. reflexivity. Qed.

Section Merge.
  Context (E : env) (EV : list cedge) (st : state) (W : wf E EV st) (cs cu : chain)
          (Gs : get_chain st (c_id cs) = Some cs) (Gu : get_chain st (c_id cu) = Some cu) (NE : c_id cs <> c_id cu).
  Local Notation this := (c_id cs).
  Local Notation other := (c_id cu).
  Local Notation P := (outs cu cs ++ outs cs cu).

  Lemma Ins : In cs (s_chains st). Proof. apply (get_In _ _ _ Gs). Qed.
  Lemma Inu : In cu (s_chains st). Proof. apply (get_In _ _ _ Gu). Qed.
  Lemma bundle_in c b : In c (s_chains st) -> In b (c_bundles c) -> In b (all_bundles st).
  Proof. intros H1 H2. apply in_flat_map. exists c. auto. Qed.
  Lemma node_placed c n : In c (s_chains st) -> In n (chain_nodes c) -> exists b, In b (c_bundles c) /\ In n (b_nodes b) /\ s_map st n = Some (b_id b, pos (e_size E) (b_nodes b) n).
  Proof.
    intros H1 H2. apply in_chain_nodes in H2 as [b [B1 B2]]. exists b. split; [exact B1|]. split; [exact B2|].
    apply (w_map _ _ _ W); [eapply bundle_in; eassumption|exact B2].
  Qed.
  Lemma placed_of c n : In c (s_chains st) -> In n (chain_nodes c) -> placed st n.
  Proof.
    intros H1 H2. destruct (node_placed c n H1 H2) as [b [B1 [B2 B3]]]. exists (b_id b), (pos (e_size E) (b_nodes b) n).
    split; [exact B3|]. apply in_map. eapply bundle_in; eassumption.
  Qed.
  Lemma outs_ends c d e : In c (s_chains st) -> In d (s_chains st) -> c_id c <> c_id d -> In e (outs c d) -> In (ce_src e) (chain_nodes c) /\ In (ce_sink e) (chain_nodes d).
  Proof.
    intros H1 H2 H3 H. apply (Permutation_in _ (w_out _ _ _ W c d H1 H2 H3)) in H. apply filter_In in H as [_ H]. unfold from_to in H.
    apply andb_true_iff in H as [A B]. apply memz_In in A, B. auto.
  Qed.
  Lemma live_s : live st this. Proof. exists cs. exact Gs. Qed.
  Lemma live_u : live st other. Proof. exists cu. exact Gu. Qed.
  Lemma out_u y : out st other y = aget Z.eqb y (c_out cu). Proof. unfold out. rewrite Gu. reflexivity. Qed.
  Lemma in_keys_u y : In y (akeys (c_out cu)) <-> out st other y <> None.
  Proof.
    rewrite out_u. pose proof (aget_None_iff Z.eqb Z_eqb_reflect y (c_out cu)) as H. destruct (aget Z.eqb y (c_out cu)).
    - split; [discriminate|]. intros _. destruct (in_dec Z.eq_dec y (akeys (c_out cu))) as [Q|Q]; [exact Q|]. apply H in Q. discriminate.
    - split; [|congruence]. intros Q. exfalso. apply H in Q; [exact Q|reflexivity].
  Qed.
  Lemma in_ins_u x : In x (c_in cu) <-> out st x other <> None.
  Proof. rewrite <- (w_inout _ _ _ W). unfold inn. rewrite Gu. reflexivity. Qed.
  Lemma live_src x y : out st x y <> None -> live st x.
  Proof. unfold out, live. destruct (get_chain st x); [eauto|congruence]. Qed.

  Lemma merge_edges_ok : exists st1, MergeChainEdges st this other = Ok st1 /\ chs st st1 P /\ keys_ok st1 /\
    (forall x y, x <> other -> out st1 x y =
       if y =? other then None else
       if x =? this then if y =? this then None else appo (out st this y) (out st other y)
       else if y =? this then appo (out st x this) (out st x other) else out st x y) /\
    (forall x y, live st y -> y <> other -> (inn st1 x y <->
       x <> other /\ if x =? this then y <> this /\ (out st this y <> None \/ out st other y <> None)
       else if y =? this then out st x this <> None \/ out st x other <> None else out st x y <> None)).
  Proof.
    unfold MergeChainEdges. rewrite Gu. pose proof (w_self _ _ _ W) as SF. pose proof (w_inout _ _ _ W) as IO.
    destruct (w_keys _ _ _ W cu Inu) as [KO KI].
    destruct (merge_outs_ok this other NE (c_out cu) st KO) as [sa [EA [CA [OA [IA KA]]]]].
    { intros k Hk. apply in_keys_u in Hk. split; [apply (w_live _ _ _ W _ _ Hk)|]. intros ->. rewrite SF in Hk. congruence. }
    { apply live_s. }
    { intros e He. apply (placed_of cu); [apply Inu|]. apply (outs_ends cu cs e Inu Ins (fun q => NE (eq_sym q))). exact He. }
    { intros y Hy _. apply IO. exact Hy. }
    rewrite EA. cbn [obind].
    assert (OA' : forall x y, out sa x y = if (x =? this) && negb (y =? this) then appo (out st this y) (out st other y) else out st x y).
    { intros x y. rewrite OA, <- out_u. reflexivity. }
    assert (OT : forall x, out sa x other = out st x other).
    { intros x. rewrite OA'. destruct (Z.eqb_spec x this) as [->|]; [|reflexivity]. replace (other =? this) with false by (symmetry; apply Z.eqb_neq; congruence).
      cbn [negb andb]. rewrite SF. reflexivity. }
    assert (NO : forall x, out st x other <> None -> x <> other) by (intros x H ->; rewrite SF in H; congruence).
    destruct (merge_ins_ok this other (c_in cu) sa KI) as [sb [EB [CB [OB [IB KB]]]]].
    { intros k Hk. apply in_ins_u in Hk. rewrite OT. split; [rewrite (chs_live _ _ _ _ CA); eapply live_src; eassumption|]. split; [apply NO; exact Hk|exact Hk]. }
    { rewrite (chs_live _ _ _ _ CA). apply live_s. }
    { intros _ es e He Hin. rewrite OT in He. rewrite (chs_placed _ _ _ _ CA). apply (placed_of cs); [apply Ins|].
      apply (outs_ends cs cu e Ins Inu NE). rewrite (outs_out st cs cu Gs), He. exact Hin. }
    { intros x Hx Hy. apply in_ins_u in Hx. rewrite IA by apply live_s. rewrite OA' in Hy. rewrite Z.eqb_refl in Hy. cbn [negb] in Hy. rewrite andb_false_r in Hy.
      destruct (memz this (akeys (c_out cu))); [|apply IO; exact Hy]. split; [apply NO; exact Hx|]. right. apply IO. exact Hy. }
    exists sb. split; [exact EB|].
    assert (MT : (if memz this (c_in cu) then match out sa this other with Some es => es | None => [] end else []) = outs cs cu).
    { rewrite OT, (outs_out st cs cu Gs). destruct (memz this (c_in cu)) eqn:M; [reflexivity|]. apply memz_false in M. rewrite in_ins_u in M.
      destruct (out st this other); [exfalso; apply M; discriminate|reflexivity]. }
    rewrite MT in CB. split; [exact (chs_trans _ _ _ _ _ CA CB)|]. split; [apply KB, KA, (w_keys _ _ _ W)|].
    assert (MX : forall x, memz x (c_in cu) = match out st x other with Some _ => true | None => false end).
    { intros x. destruct (memz x (c_in cu)) eqn:M.
      - apply memz_In, in_ins_u in M. destruct (out st x other); congruence.
      - apply memz_false in M. rewrite in_ins_u in M. destruct (out st x other); [exfalso; apply M; discriminate|reflexivity]. }
    split.
    - intros x y Nx. rewrite OB, MX, !OT, !OA', Z.eqb_refl. cbn [negb]. rewrite andb_false_r.
      destruct (Z.eqb_spec y other) as [->|Ny].
      + replace (other =? this) with false by (symmetry; apply Z.eqb_neq; congruence). cbn [negb]. rewrite andb_true_r.
        destruct (out st x other) eqn:Q; [reflexivity|]. destruct (Z.eqb_spec x this) as [->|]; [|reflexivity]. rewrite Q, SF. reflexivity.
      + destruct (Z.eqb_spec x this) as [->|Nt]; cbn [andb negb].
        * rewrite andb_false_r. destruct (Z.eqb_spec y this) as [->|Ny2]; cbn [negb].
          -- rewrite SF. destruct (out st this other); reflexivity.
          -- destruct (out st this other); reflexivity.
        * rewrite andb_true_r. destruct (Z.eqb_spec y this) as [->|Ny2]; [|destruct (out st x other); reflexivity].
          destruct (out st x other); reflexivity.
    - intros x y Ly Ny. rewrite IB. rewrite in_ins_u. pose proof (IA x y Ly) as J.
      assert (MK : memz y (akeys (c_out cu)) = match out st other y with Some _ => true | None => false end).
      { destruct (memz y (akeys (c_out cu))) eqn:M.
        - apply memz_In, in_keys_u in M. destruct (out st other y); congruence.
        - apply memz_false in M. rewrite in_keys_u in M. destruct (out st other y); [exfalso; apply M; discriminate|reflexivity]. }
      rewrite MK in J. pose proof (IO x y) as K. specialize (NO x). pose proof (SF this) as ST.
      destruct (Z.eqb_spec x this) as [->|Nt].
      + destruct (out st other y) eqn:Q; rewrite J, K; clear J K.
        * assert (y = this -> out st this y = None) by (intros ->; exact ST). intuition congruence.
        * assert (y = this -> out st this y = None) by (intros ->; exact ST). intuition congruence.
      + destruct (Z.eqb_spec y this) as [->|Nyt].
        * destruct (out st other this) eqn:Q; rewrite J, K; clear J K; [intuition congruence|].
          assert (x = other -> out st x this = None) by (intros ->; exact Q). intuition congruence.
        * destruct (out st other y) eqn:Q; rewrite J, K; clear J K; [intuition congruence|].
          assert (x = other -> out st x y = None) by (intros ->; exact Q). intuition congruence.
  Qed.
End Merge.
