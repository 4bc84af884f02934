(** Proofs about chain assemblies: slices, distances, score gain. *)
From Verif Require Import Base ISort ForcedModel ChainModel ChainSpec.

Lemma memz_In n l : memz n l = true <-> In n l.
Proof.
  unfold memz. rewrite existsb_exists. split.
  - intros [x [A B]]. apply Z.eqb_eq in B. subst. exact A.
  - intros H. exists n. split; [exact H|apply Z.eqb_refl].
Qed.
Lemma memz_false n l : memz n l = false <-> ~ In n l.
Proof. rewrite <- memz_In. destruct (memz n l); split; intros; congruence. Qed.
Lemma memz_app n l k : memz n (l ++ k) = memz n l || memz n k.
Proof. unfold memz. apply existsb_app. Qed.
Lemma sumz_app l k : sumz (l ++ k) = sumz l + sumz k.
Proof. unfold sumz. induction l as [|x l IH]; cbn [app fold_right]; lia. Qed.
Lemma sumf_app {A} (f : A -> Z) l k : sumf f (l ++ k) = sumf f l + sumf f k.
Proof. unfold sumf. rewrite map_app. apply sumz_app. Qed.
Lemma sumf_nil {A} (f : A -> Z) : sumf f [] = 0.
Proof. reflexivity. Qed.
Lemma sumf_cons {A} (f : A -> Z) x l : sumf f (x :: l) = f x + sumf f l.
Proof. reflexivity. Qed.
Lemma sumf_ext {A} (f g : A -> Z) l : (forall x, In x l -> f x = g x) -> sumf f l = sumf g l.
Proof.
  induction l as [|x l IH]; intros H; [reflexivity|]. rewrite !sumf_cons, H, IH; [reflexivity| |left; reflexivity].
  intros; apply H; right; assumption.
Qed.
Lemma sumf_filter {A} (f : A -> Z) p l : sumf f (filter p l) = sumf (fun x => if p x then f x else 0) l.
Proof.
  induction l as [|x l IH]; cbn [filter]; [reflexivity|]. rewrite sumf_cons. destruct (p x); [rewrite sumf_cons|]; lia.
Qed.
Lemma sumf_plus {A} (f g : A -> Z) l : sumf (fun x => f x + g x) l = sumf f l + sumf g l.
Proof. induction l as [|x l IH]; [reflexivity|]. rewrite !sumf_cons. lia. Qed.
Lemma sumf_minus {A} (f g : A -> Z) l : sumf (fun x => f x - g x) l = sumf f l - sumf g l.
Proof. induction l as [|x l IH]; [reflexivity|]. rewrite !sumf_cons. lia. Qed.
Lemma sumf_perm {A} (f : A -> Z) l k : Permutation l k -> sumf f l = sumf f k.
Proof.
  induction 1; rewrite ?sumf_cons; try lia. 
Qed.
Lemma sumf_rev {A} (f : A -> Z) l : sumf f (rev l) = sumf f l.
Proof. apply sumf_perm, Permutation_sym, Permutation_rev. Qed.
Lemma sumf_flat_map {A B} (f : B -> Z) (g : A -> list B) l : sumf f (flat_map g l) = sumf (fun x => sumf f (g x)) l.
Proof. induction l as [|x l IH]; [reflexivity|]. cbn [flat_map]. rewrite sumf_app, sumf_cons. lia. Qed.

Lemma sumf_zero {A} (f : A -> Z) l : (forall x, In x l -> f x = 0) -> sumf f l = 0.
Proof. induction l as [|x l IH]; intros H; [reflexivity|]. rewrite sumf_cons, H, IH; [reflexivity| |left; reflexivity]. intros; apply H; right; assumption. Qed.

Lemma NoDup_app_inv {A} (l k : list A) : NoDup (l ++ k) -> NoDup l /\ NoDup k /\ forall x, In x l -> ~ In x k.
Proof.
  induction l as [|a l IH]; cbn [app]; intros H; [split; [constructor|]; split; [exact H|intros x []]|].
  inversion H; subst. destruct (IH H3) as [A1 [A2 A3]]. split; [|split; [exact A2|]].
  - constructor; [|exact A1]. intros Hi. apply H2, in_app_iff. left. exact Hi.
  - intros x [<-|Hx]; [|apply A3; exact Hx]. intros Hk. apply H2, in_app_iff. right. exact Hk.
Qed.
Lemma NoDup_app_intro {A} (l k : list A) : NoDup l -> NoDup k -> (forall x, In x l -> ~ In x k) -> NoDup (l ++ k).
Proof.
  intros Hl Hk D. induction Hl as [|a l Ha Hl IH]; [exact Hk|]. cbn [app]. constructor.
  - rewrite in_app_iff. intros [H|H]; [contradiction|]. apply (D a); [left; reflexivity|exact H].
  - apply IH. intros x Hx. apply D. right. exact Hx.
Qed.

(** * Positions *)
Section Pos.
  Context (sz : Z -> Z).
  Lemma tot_app l k : tot sz (l ++ k) = tot sz l + tot sz k.
  Proof. unfold tot. rewrite map_app. apply sumz_app. Qed.
  Lemma tot_cons x l : tot sz (x :: l) = sz x + tot sz l.
  Proof. reflexivity. Qed.
  Lemma pos_app_l l k n : In n l -> pos sz (l ++ k) n = pos sz l n.
  Proof.
    induction l as [|m l IH]; intros H; [destruct H|]. cbn [app pos]. destruct (Z.eqb_spec m n); [reflexivity|].
    destruct H as [H|H]; [congruence|]. rewrite IH by exact H. reflexivity.
  Qed.
  Lemma pos_app_r l k n : ~ In n l -> pos sz (l ++ k) n = tot sz l + pos sz k n.
  Proof.
    induction l as [|m l IH]; intros H; [reflexivity|]. cbn [app pos]. rewrite tot_cons.
    destruct (Z.eqb_spec m n) as [->|N]; [exfalso; apply H; left; reflexivity|].
    rewrite IH; [lia|]. intros Hi; apply H; right; exact Hi.
  Qed.
  Context (SZ : forall n, 0 <= sz n).
  Lemma tot_nonneg l : 0 <= tot sz l.
  Proof. induction l as [|x l IH]; [unfold tot, sumz; cbn; lia|]. rewrite tot_cons. specialize (SZ x). lia. Qed.
  Lemma pos_bound l n : In n l -> 0 <= pos sz l n /\ pos sz l n + sz n <= tot sz l.
  Proof.
    induction l as [|m l IH]; intros H; [destruct H|]. cbn [pos]. rewrite tot_cons. pose proof (tot_nonneg l). pose proof (SZ m).
    destruct (Z.eqb_spec m n) as [->|N]; [lia|]. destruct H as [H|H]; [congruence|]. specialize (IH H). lia.
  Qed.
End Pos.

(** * Well-formed bundles of a chain *)
Inductive bundles_ok (E : env) (cid : Z) : Z -> Z -> list bundle -> Prop :=
| bo_nil idx off : bundles_ok E cid idx off []
| bo_cons idx off b bs :
    b_chain b = cid -> b_index b = idx -> b_offset b = off -> b_nodes b <> [] ->
    b_size b = tot (e_size E) (b_nodes b) -> b_freq b = tot (e_freq E) (b_nodes b) ->
    bundles_ok E cid (idx + 1) (off + b_size b) bs -> bundles_ok E cid idx off (b :: bs).

Lemma bundles_ok_app E cid bs1 : forall bs2 idx off,
  bundles_ok E cid idx off (bs1 ++ bs2) <->
  bundles_ok E cid idx off bs1 /\ bundles_ok E cid (idx + zlen bs1) (off + tot (e_size E) (flat_map b_nodes bs1)) bs2.
Proof.
  induction bs1 as [|b bs1 IH]; intros bs2 idx off; cbn [app flat_map].
  - rewrite zlen_nil. replace (idx + 0) with idx by lia. replace (off + tot (e_size E) []) with off by (unfold tot, sumz; cbn; lia).
    split; [intros H; split; [constructor|exact H]|intros [_ H]; exact H].
  - rewrite zlen_cons, tot_app. split.
    + intros H. inversion H; subst. apply IH in H10 as [A B]. split; [constructor; auto|].
      replace (b_index b + (1 + zlen bs1)) with (b_index b + 1 + zlen bs1) by lia.
      replace (b_offset b + (tot (e_size E) (b_nodes b) + tot (e_size E) (flat_map b_nodes bs1)))
        with (b_offset b + b_size b + tot (e_size E) (flat_map b_nodes bs1)) by lia. exact B.
    + intros [A B]. inversion A; subst. constructor; auto. apply IH. split; [assumption|].
      replace (b_index b + 1 + zlen bs1) with (b_index b + (1 + zlen bs1)) by lia.
      replace (b_offset b + b_size b + tot (e_size E) (flat_map b_nodes bs1))
        with (b_offset b + (tot (e_size E) (b_nodes b) + tot (e_size E) (flat_map b_nodes bs1))) by lia. exact B.
Qed.

Definition chain_ok (E : env) (c : chain) : Prop :=
  bundles_ok E (c_id c) 0 0 (c_bundles c) /\ c_bundles c <> [] /\
  c_size c = tot (e_size E) (chain_nodes c) /\ c_freq c = tot (e_freq E) (chain_nodes c).
(** The mapper finds the blocks of a chain. *)
Definition found (E : env) (lc : Z -> option (bundle * Z)) (c : chain) : Prop :=
  forall b n, In b (c_bundles c) -> In n (b_nodes b) -> lc n = Some (b, pos (e_size E) (b_nodes b) n).

Lemma in_chain_nodes c n : In n (chain_nodes c) <-> exists b, In b (c_bundles c) /\ In n (b_nodes b).
Proof. unfold chain_nodes. apply in_flat_map. Qed.

Section OneChain.
  Context (E : env).
  Local Notation sz := (e_size E).
  (** Splitting the bundle list at a bundle. *)
  Lemma bundles_at cid bs1 b bs2 idx off : bundles_ok E cid idx off (bs1 ++ b :: bs2) ->
    b_chain b = cid /\ b_index b = idx + zlen bs1 /\ b_offset b = off + tot sz (flat_map b_nodes bs1) /\ b_nodes b <> [] /\ b_size b = tot sz (b_nodes b).
  Proof. intros H. apply bundles_ok_app in H as [_ H]. inversion H; subst. auto. Qed.
  Lemma node_at c b n : chain_ok E c -> NoDup (chain_nodes c) -> In b (c_bundles c) -> In n (b_nodes b) ->
    node_offset (b, pos sz (b_nodes b) n) = pos sz (chain_nodes c) n /\ b_chain b = c_id c.
  Proof.
    intros [B _] ND Hb Hn. apply in_split in Hb as [l1 [l2 Q]]. unfold chain_nodes in *. rewrite Q in *.
    destruct (bundles_at _ _ _ _ _ _ B) as [A1 [_ [A3 _]]]. split; [|exact A1].
    unfold node_offset. cbn [fst snd]. rewrite flat_map_app in *. cbn [flat_map] in *.
    apply NoDup_app_inv in ND as [_ [_ D]].
    rewrite pos_app_r; [|intros H; apply (D n H), in_app_iff; left; exact Hn].
    rewrite pos_app_l by exact Hn. rewrite A3. lia.
  Qed.
  (** A slice of the chain: blocks before, inside and after, and its offsets. *)
  Lemma slice_split cs cu s : let c := sl_chain cs cu s in chain_ok E c ->
    (sl_begin s < sl_end s)%nat -> (sl_end s <= length (c_bundles c))%nat ->
    exists pre post, c_bundles c = pre ++ sl_bundles cs cu s ++ post /\ length pre = sl_begin s /\ (length pre + length (sl_bundles cs cu s) = sl_end s)%nat /\
      begin_offset cs cu s = tot sz (flat_map b_nodes pre) /\
      end_offset cs cu s = tot sz (flat_map b_nodes pre) + tot sz (flat_map b_nodes (sl_bundles cs cu s)).
  Proof.
    intros c [B [_ [CS _]]] H1 H2. unfold sl_bundles, begin_offset, end_offset. fold c.
    set (bs := c_bundles c) in *. set (pre := firstn (sl_begin s) bs). set (r := skipn (sl_begin s) bs).
    set (mid := firstn (sl_end s - sl_begin s) r). set (post := skipn (sl_end s - sl_begin s) r).
    assert (Q : bs = pre ++ mid ++ post) by (unfold mid, post; rewrite firstn_skipn; unfold pre, r; rewrite firstn_skipn; reflexivity).
    assert (L1 : length pre = sl_begin s) by (unfold pre; rewrite firstn_length; lia).
    assert (L2 : length mid = (sl_end s - sl_begin s)%nat) by (unfold mid, r; rewrite firstn_length, skipn_length; lia).
    exists pre, post. split; [exact Q|]. split; [exact L1|]. split; [lia|]. split.
    - destruct mid as [|m mid'] eqn:Em; [cbn in L2; lia|]. rewrite Q. rewrite nth_error_app2 by lia. rewrite L1, Nat.sub_diag. cbn [app nth_error].
      rewrite Q in B. cbn [app] in B. apply bundles_at in B as [_ [_ [B _]]]. rewrite B. lia.
    - destruct post as [|q post'] eqn:Ep.
      + assert (nth_error bs (sl_end s) = None) as -> by (apply nth_error_None; rewrite Q, !app_length; cbn [length]; lia).
        rewrite CS. unfold chain_nodes. fold bs. rewrite Q. rewrite app_nil_r, flat_map_app, tot_app. reflexivity.
      + rewrite Q. rewrite nth_error_app2 by lia. rewrite nth_error_app2 by lia. replace (sl_end s - length pre - length mid)%nat with O by lia. cbn [nth_error].
        rewrite Q in B. rewrite app_assoc in B. apply bundles_at in B as [_ [_ [B _]]]. rewrite B, flat_map_app, tot_app. lia.
  Qed.
End OneChain.

(** * Scans over zero-sized blocks *)
Section Scan.
  Context (E : env) (SZ : forall n, 0 <= e_size E n).
  Local Notation sz := (e_size E).
  Lemma scan_back_nodes_In n ns : scan_back_nodes E n ns = true -> In n ns.
  Proof.
    induction ns as [|m ns IH]; cbn [scan_back_nodes]; [discriminate|]. destruct (negb _); [discriminate|].
    destruct (Z.eqb_spec m n); [left; assumption|right; auto].
  Qed.
  Lemma scan_front_nodes_In n ns : scan_front_nodes E n ns = true -> In n ns.
  Proof.
    induction ns as [|m ns IH]; cbn [scan_front_nodes]; [discriminate|].
    destruct (Z.eqb_spec m n); [left; assumption|]. destruct (negb _); [discriminate|]. right; auto.
  Qed.
  Lemma scan_back_In n bs : scan_back E n bs = true -> In n (flat_map b_nodes bs).
  Proof.
    unfold scan_back. rewrite existsb_exists. intros [b [A B]]. apply in_rev in A. apply scan_back_nodes_In, in_rev in B.
    apply in_flat_map. exists b. auto.
  Qed.
  Lemma scan_front_In n bs : scan_front E n bs = true -> In n (flat_map b_nodes bs).
  Proof.
    unfold scan_front. rewrite existsb_exists. intros [b [A B]]. apply scan_front_nodes_In in B. apply in_flat_map. exists b. auto.
  Qed.
  Lemma tot_zero l : tot sz l = 0 -> forall x, In x l -> sz x = 0.
  Proof.
    induction l as [|m l IH]; intros H x Hx; [destruct Hx|]. rewrite tot_cons in H. pose proof (SZ m). pose proof (tot_nonneg sz SZ l).
    destruct Hx as [<-|Hx]; [lia|]. apply IH; [lia|exact Hx].
  Qed.
  Lemma scan_front_nodes_ok n k l : (forall x, In x l -> sz x = 0) -> scan_front_nodes E n (l ++ n :: k) = true.
  Proof.
    induction l as [|m l IH]; intros H; cbn [app scan_front_nodes]; [rewrite Z.eqb_refl; reflexivity|].
    destruct (m =? n); [reflexivity|]. rewrite H by (left; reflexivity). cbn. apply IH. intros; apply H; right; assumption.
  Qed.
  Lemma scan_back_nodes_ok n k l : (forall x, In x l -> sz x = 0) -> sz n = 0 -> scan_back_nodes E n (l ++ n :: k) = true.
  Proof.
    intros H Hn. induction l as [|m l IH]; cbn [app scan_back_nodes].
    - rewrite Hn. cbn. rewrite Z.eqb_refl. reflexivity.
    - rewrite H by (left; reflexivity). cbn. destruct (m =? n); [reflexivity|]. apply IH. intros; apply H; right; assumption.
  Qed.
  Lemma scan_front_ok n bs : NoDup (flat_map b_nodes bs) -> In n (flat_map b_nodes bs) -> pos sz (flat_map b_nodes bs) n = 0 -> scan_front E n bs = true.
  Proof.
    intros ND Hn P. apply in_flat_map in Hn as [b [Hb Hn]]. unfold scan_front. apply existsb_exists. exists b. split; [exact Hb|].
    apply in_split in Hb as [l1 [l2 ->]]. rewrite flat_map_app in *. cbn [flat_map] in *.
    apply in_split in Hn as [k1 [k2 Q]]. rewrite Q in *. apply scan_front_nodes_ok.
    apply NoDup_app_inv in ND as [_ [ND D]].
    assert (A : ~ In n (flat_map b_nodes l1)) by (intros H; apply (D n H), in_app_iff; left; apply in_app_iff; right; left; reflexivity).
    rewrite pos_app_r in P by exact A. rewrite <- app_assoc in ND. rewrite <- app_assoc in P. cbn [app] in *.
    assert (A2 : ~ In n k1) by (apply NoDup_app_inv in ND as [_ [_ D2]]; intros H; apply (D2 n H); left; reflexivity).
    rewrite pos_app_r in P by exact A2. cbn [pos] in P. rewrite Z.eqb_refl in P.
    pose proof (tot_nonneg sz SZ (flat_map b_nodes l1)). pose proof (tot_nonneg sz SZ k1). apply tot_zero. lia.
  Qed.
  Lemma scan_back_ok n bs : NoDup (flat_map b_nodes bs) -> In n (flat_map b_nodes bs) ->
    pos sz (flat_map b_nodes bs) n = tot sz (flat_map b_nodes bs) -> scan_back E n bs = true.
  Proof.
    intros ND Hn P. apply in_flat_map in Hn as [b [Hb Hn]]. unfold scan_back. apply existsb_exists. exists b. split; [apply in_rev; rewrite rev_involutive; exact Hb|].
    apply in_split in Hb as [l1 [l2 ->]]. rewrite flat_map_app in *. cbn [flat_map] in *.
    apply in_split in Hn as [k1 [k2 Q]]. rewrite Q in *. rewrite rev_app_distr. cbn [rev]. rewrite <- app_assoc. cbn [app].
    apply NoDup_app_inv in ND as [_ [ND D]].
    assert (A : ~ In n (flat_map b_nodes l1)) by (intros H; apply (D n H), in_app_iff; left; apply in_app_iff; right; left; reflexivity).
    rewrite pos_app_r in P by exact A. rewrite <- app_assoc in ND. rewrite <- app_assoc in P. cbn [app] in *.
    assert (A2 : ~ In n k1) by (apply NoDup_app_inv in ND as [_ [_ D2]]; intros H; apply (D2 n H); left; reflexivity).
    rewrite pos_app_r in P by exact A2. cbn [pos] in P. rewrite Z.eqb_refl in P.
    rewrite !tot_app, tot_cons, tot_app in P. pose proof (SZ n). pose proof (tot_nonneg sz SZ k2). pose proof (tot_nonneg sz SZ (flat_map b_nodes l2)).
    apply scan_back_nodes_ok; [|lia]. intros x Hx. apply in_rev in Hx. apply (tot_zero k2); [lia|exact Hx].
  Qed.
End Scan.

Lemma flat_map_firstn_skipn {A B} (f : A -> list B) k l : flat_map f (firstn k l) ++ flat_map f (skipn k l) = flat_map f l.
Proof. rewrite <- flat_map_app, firstn_skipn. reflexivity. Qed.

Section Asm.
  Context (E : env) (lc : Z -> option (bundle * Z)) (cs cu : chain).
  Local Notation sz := (e_size E).
  Definition sn (s : slice) : list Z := flat_map b_nodes (sl_bundles cs cu s).
  Definition asm_nodes (sls : list slice) : list Z := flat_map b_nodes (asm_bundles cs cu sls).
  Lemma asm_nodes_eq sls : asm_nodes sls = flat_map sn sls.
  Proof.
    unfold asm_nodes, asm_bundles, sn. induction sls as [|s sls IH]; [reflexivity|]. cbn [flat_map]. rewrite flat_map_app, IH. reflexivity.
  Qed.
  Lemma sn_full b : sn (Slice b 0 (length (c_bundles (if b then cs else cu)))) = chain_nodes (if b then cs else cu).
  Proof.
    unfold sn, sl_bundles, sl_chain, chain_nodes. cbn [sl_split sl_begin sl_end]. rewrite Nat.sub_0_r. cbn [skipn].
    rewrite firstn_all. reflexivity.
  Qed.
  Lemma sn_first p : sn (Slice true 0 p) = flat_map b_nodes (firstn p (c_bundles cs)).
  Proof. unfold sn, sl_bundles, sl_chain. cbn [sl_split sl_begin sl_end]. rewrite Nat.sub_0_r. reflexivity. Qed.
  Lemma sn_second p : sn (Slice true p (length (c_bundles cs))) = flat_map b_nodes (skipn p (c_bundles cs)).
  Proof.
    unfold sn, sl_bundles, sl_chain. cbn [sl_split sl_begin sl_end].
    rewrite firstn_all2; [reflexivity|]. rewrite skipn_length. lia.
  Qed.
  (** The block order of an assembly. *)
  Lemma asm_order o p : valid_cut cs o p ->
    let k := match p with Some p => Z.to_nat p | None => length (c_bundles cs) end in
    slice_order (flat_map b_nodes (firstn k (c_bundles cs))) (flat_map b_nodes (skipn k (c_bundles cs))) (chain_nodes cu)
                o (asm_nodes (ConstructSlices cs cu o p)).
  Proof.
    intros V k. rewrite asm_nodes_eq. unfold ConstructSlices.
    destruct o, p as [p|]; cbn in V; try (exfalso; exact V); subst k; cbv beta iota zeta; cbn [flat_map];
      rewrite ?sn_first, ?sn_second, ?(sn_full true), ?(sn_full false), ?app_nil_r.
    - rewrite skipn_all, firstn_all. cbn [flat_map]. unfold chain_nodes at 2. 
      replace (flat_map b_nodes (c_bundles cs) ++ chain_nodes cu) with (flat_map b_nodes (c_bundles cs) ++ [] ++ chain_nodes cu) by reflexivity.
      constructor.
    - constructor.
    - constructor.
    - constructor.
    - constructor.
  Qed.
  Lemma slice_order_perm s1 s2 u o l : slice_order s1 s2 u o l -> Permutation l ((s1 ++ s2) ++ u).
  Proof.
    destruct 1.
    - rewrite app_assoc. apply Permutation_refl.
    - rewrite app_assoc. apply Permutation_app_tail, Permutation_app_comm.
    - rewrite <- app_assoc. apply Permutation_app_head, Permutation_app_comm.
    - eapply perm_trans; [apply Permutation_app_comm|]. apply Permutation_app_tail, Permutation_app_comm.
    - eapply perm_trans; [apply Permutation_app_comm|]. rewrite <- !app_assoc.
      eapply perm_trans; [apply Permutation_app_comm|]. rewrite <- app_assoc. apply Permutation_refl.
  Qed.
  Lemma asm_perm o p : valid_cut cs o p -> Permutation (asm_nodes (ConstructSlices cs cu o p)) (chain_nodes cs ++ chain_nodes cu).
  Proof.
    intros V. pose proof (slice_order_perm _ _ _ _ _ (asm_order o p V)) as H. cbv zeta in H. rewrite flat_map_firstn_skipn in H. exact H.
  Qed.

  Context (SZ : forall n, 0 <= e_size E n) (OS : chain_ok E cs) (OU : chain_ok E cu)
          (FS : found E lc cs) (FU : found E lc cu) (ND : NoDup (chain_nodes cs ++ chain_nodes cu)) (NE : c_id cs <> c_id cu).
  Let in_both n := In n (chain_nodes cs) \/ In n (chain_nodes cu).

  Lemma NDs : NoDup (chain_nodes cs). Proof. apply NoDup_app_inv in ND. tauto. Qed.
  Lemma NDu : NoDup (chain_nodes cu). Proof. apply NoDup_app_inv in ND. tauto. Qed.

  Definition good_slice (s : slice) : Prop := (sl_begin s < sl_end s)%nat /\ (sl_end s <= length (c_bundles (sl_chain cs cu s)))%nat.
  Lemma chain_ok_sl s : chain_ok E (sl_chain cs cu s) /\ NoDup (chain_nodes (sl_chain cs cu s)).
  Proof. unfold sl_chain. destruct (sl_split s); (split; [assumption|]); [apply NDs|apply NDu]. Qed.
  Lemma good_offsets s n : good_slice s -> In n (sn s) ->
    In n (chain_nodes (sl_chain cs cu s)) /\ pos sz (chain_nodes (sl_chain cs cu s)) n = begin_offset cs cu s + pos sz (sn s) n.
  Proof.
    intros [G1 G2] Hn. destruct (chain_ok_sl s) as [O N]. destruct (slice_split E cs cu s O G1 G2) as [pre [post [Q [_ [_ [B _]]]]]].
    unfold chain_nodes in *. rewrite Q in *. rewrite !flat_map_app in *. fold (sn s) in *. split; [rewrite !in_app_iff; tauto|].
    apply NoDup_app_inv in N as [_ [N D]]. rewrite pos_app_r by (intros H; apply (D n H), in_app_iff; left; exact Hn).
    rewrite pos_app_l by exact Hn. rewrite B. reflexivity.
  Qed.
  Lemma good_end s : good_slice s -> end_offset cs cu s = begin_offset cs cu s + tot sz (sn s).
  Proof.
    intros [G1 G2]. destruct (chain_ok_sl s) as [O N]. destruct (slice_split E cs cu s O G1 G2) as [pre [post [Q [_ [_ [B C]]]]]].
    rewrite B, C. reflexivity.
  Qed.
  Lemma in_slice_iff s n : good_slice s -> In n (chain_nodes (sl_chain cs cu s)) ->
    (in_slice E cs cu n (pos sz (chain_nodes (sl_chain cs cu s)) n) s = true <-> In n (sn s)).
  Proof.
    intros G Hn. pose proof G as [G1 G2]. destruct (chain_ok_sl s) as [O N].
    destruct (slice_split E cs cu s O G1 G2) as [pre [post [Q [_ [_ [B C]]]]]]. split.
    - unfold in_slice. rewrite !orb_true_iff, !andb_true_iff. intros [[[A1 A2]|[_ A]]|[_ A]].
      + unfold chain_nodes in Hn, A1, A2, N. rewrite Q in Hn, A1, A2, N. rewrite !flat_map_app in Hn, A1, A2, N. fold (sn s) in Hn, A1, A2, N, C.
        apply NoDup_app_inv in N as [_ [N D]]. apply NoDup_app_inv in N as [_ [N2 D2]].
        rewrite !in_app_iff in Hn. destruct Hn as [Hn|[Hn|Hn]]; [exfalso|exact Hn|exfalso].
        * rewrite pos_app_l in A2 by exact Hn. destruct (pos_bound sz SZ _ _ Hn). pose proof (SZ n). lia.
        * assert (X1 : ~ In n (flat_map b_nodes pre)) by (intros H; apply (D n H), in_app_iff; right; exact Hn).
          assert (X2 : ~ In n (sn s)) by (intros H; apply (D2 n H); exact Hn).
          rewrite pos_app_r in A1 by exact X1. rewrite pos_app_r in A1 by exact X2. destruct (pos_bound sz SZ _ _ Hn). lia.
      + apply scan_back_In in A. exact A.
      + apply scan_front_In in A. exact A.
    - intros Hi. destruct (good_offsets s n G Hi) as [_ P]. rewrite P. fold (sn s) in C. destruct (pos_bound sz SZ _ _ Hi) as [P1 P2]. pose proof (SZ n).
      assert (Ns : NoDup (sn s)).
      { unfold chain_nodes in N. rewrite Q, !flat_map_app in N. apply NoDup_app_inv in N as [_ [N _]]. apply NoDup_app_inv in N as [N _]. exact N. }
      unfold in_slice. destruct (Z.eq_dec (pos sz (sn s) n) (tot sz (sn s))) as [X|X].
      + rewrite (scan_back_ok E SZ n (sl_bundles cs cu s) Ns Hi X).
        replace (begin_offset cs cu s + pos sz (sn s) n =? end_offset cs cu s) with true by lia. rewrite orb_true_r. reflexivity.
      + destruct (Z.eq_dec (pos sz (sn s) n) 0) as [Y|Y].
        * rewrite (scan_front_ok E SZ n (sl_bundles cs cu s) Ns Hi Y).
          replace (begin_offset cs cu s + pos sz (sn s) n =? begin_offset cs cu s) with true by lia. rewrite !orb_true_r. reflexivity.
        * replace (begin_offset cs cu s + pos sz (sn s) n <? end_offset cs cu s) with true by lia.
          replace (begin_offset cs cu s + pos sz (sn s) n >? begin_offset cs cu s) with true by lia. reflexivity.
  Qed.

  Lemma good_slices o p : valid_cut cs o p -> forall s, In s (ConstructSlices cs cu o p) -> good_slice s.
  Proof.
    intros V s Hs. destruct OS as [_ [S0 _]]. destruct OU as [_ [U0 _]].
    assert (length (c_bundles cs) <> 0)%nat by (destruct (c_bundles cs); [congruence|cbn; lia]).
    assert (length (c_bundles cu) <> 0)%nat by (destruct (c_bundles cu); [congruence|cbn; lia]).
    unfold ConstructSlices in Hs. unfold valid_cut in V.
    destruct o, p as [p|]; try unfold zlen in V; try (exfalso; exact V); cbn in Hs;
      (destruct Hs as [<-|Hs]; [unfold good_slice, sl_chain; cbn [sl_split sl_begin sl_end]; lia|]); repeat (destruct Hs as [<-|Hs]; [unfold good_slice, sl_chain; cbn [sl_split sl_begin sl_end]; lia|]); destruct Hs.
  Qed.
  (** FindSliceIndex finds the slice of every block. *)
  Lemma find_slice o p n : valid_cut cs o p -> in_both n ->
    exists l i s, lc n = Some l /\ FindSliceIndex E cs cu o (ConstructSlices cs cu o p) n l = Some i /\
      nth_error (ConstructSlices cs cu o p) i = Some s /\ In n (sn s) /\ node_offset l = begin_offset cs cu s + pos sz (sn s) n.
  Proof.
    intros V Hn. pose proof (good_slices o p V) as GS.
    assert (U : forall n, In n (chain_nodes cu) -> exists l, lc n = Some l /\ b_chain (fst l) = c_id cu /\ node_offset l = pos sz (chain_nodes cu) n).
    { intros m Hm. apply in_chain_nodes in Hm as [b [B1 B2]]. exists (b, pos sz (b_nodes b) m). split; [apply FU; assumption|].
      destruct (node_at E cu b m OU NDu B1 B2) as [A1 A2]. auto. }
    assert (S0 : forall n, In n (chain_nodes cs) -> exists l, lc n = Some l /\ b_chain (fst l) = c_id cs /\ node_offset l = pos sz (chain_nodes cs) n).
    { intros m Hm. apply in_chain_nodes in Hm as [b [B1 B2]]. exists (b, pos sz (b_nodes b) m). split; [apply FS; assumption|].
      destruct (node_at E cs b m OS NDs B1 B2) as [A1 A2]. auto. }
    destruct Hn as [Hn|Hn].
    - destruct (S0 n Hn) as [l [L1 [L2 L3]]]. exists l.
      assert (Q : forall s, In s (ConstructSlices cs cu o p) -> sl_split s = true -> (in_slice E cs cu n (node_offset l) s = true <-> In n (sn s))).
      { intros s Hs X. pose proof (in_slice_iff s n (GS s Hs)) as J. unfold sl_chain in J. rewrite X in J. rewrite L3. apply J. exact Hn. }
      assert (R : forall i s, nth_error (ConstructSlices cs cu o p) i = Some s -> sl_split s = true -> In n (sn s) ->
                  node_offset l = begin_offset cs cu s + pos sz (sn s) n).
      { intros i s Hs X J. destruct (good_offsets s n (GS s (nth_error_In _ _ Hs)) J) as [_ T]. unfold sl_chain in T. rewrite X in T. rewrite L3. exact T. }
      unfold FindSliceIndex. rewrite L2. destruct (Z.eqb_spec (c_id cs) (c_id cu)); [congruence|]. rewrite Z.eqb_refl. cbn [negb].
      destruct o, p as [p|]; cbn in V; try (exfalso; exact V).
      + exists O, (Slice true 0 (length (c_bundles cs))). split; [exact L1|]. split; [reflexivity|]. split; [reflexivity|].
        assert (In n (sn (Slice true 0 (length (c_bundles cs))))) as J by (rewrite (sn_full true); exact Hn). split; [exact J|].
        eapply (R O); [reflexivity|reflexivity|exact J].
      + set (s1 := Slice true 0 (Z.to_nat p)). set (s2 := Slice true (Z.to_nat p) (length (c_bundles cs))).
        assert (J : In n (sn s1) \/ In n (sn s2)) by (unfold s1, s2; rewrite sn_first, sn_second, <- in_app_iff, flat_map_firstn_skipn; exact Hn).
        assert (T1 := Q s1 ltac:(cbn; tauto) eq_refl). assert (T2 := Q s2 ltac:(cbn; tauto) eq_refl).
        cbn [find split_indexes]. unfold ConstructSlices. cbv zeta. cbn [nth_error]. fold s1 s2.
        destruct (in_slice E cs cu n (node_offset l) s1) eqn:I1.
        * exists 1%nat, s1. split; [exact L1|]. split; [reflexivity|]. split; [reflexivity|]. assert (In n (sn s1)) as K by tauto. split; [exact K|]. eapply (R 1%nat); [reflexivity|reflexivity|exact K].
        * assert (K : In n (sn s2)) by (destruct J as [J|J]; [apply T1 in J; congruence|exact J]). assert (in_slice E cs cu n (node_offset l) s2 = true) as -> by tauto.
          exists 0%nat, s2. split; [exact L1|]. split; [reflexivity|]. split; [reflexivity|]. split; [exact K|]. eapply (R 0%nat); [reflexivity|reflexivity|exact K].
      + set (s1 := Slice true 0 (Z.to_nat p)). set (s2 := Slice true (Z.to_nat p) (length (c_bundles cs))).
        assert (J : In n (sn s1) \/ In n (sn s2)) by (unfold s1, s2; rewrite sn_first, sn_second, <- in_app_iff, flat_map_firstn_skipn; exact Hn).
        assert (T1 := Q s1 ltac:(cbn; tauto) eq_refl). assert (T2 := Q s2 ltac:(cbn; tauto) eq_refl).
        cbn [find split_indexes]. unfold ConstructSlices. cbv zeta. cbn [nth_error]. fold s1 s2.
        destruct (in_slice E cs cu n (node_offset l) s1) eqn:I1.
        * exists 0%nat, s1. split; [exact L1|]. split; [reflexivity|]. split; [reflexivity|]. assert (In n (sn s1)) as K by tauto. split; [exact K|]. eapply (R 0%nat); [reflexivity|reflexivity|exact K].
        * assert (K : In n (sn s2)) by (destruct J as [J|J]; [apply T1 in J; congruence|exact J]). assert (in_slice E cs cu n (node_offset l) s2 = true) as -> by tauto.
          exists 2%nat, s2. split; [exact L1|]. split; [reflexivity|]. split; [reflexivity|]. split; [exact K|]. eapply (R 2%nat); [reflexivity|reflexivity|exact K].
      + set (s1 := Slice true 0 (Z.to_nat p)). set (s2 := Slice true (Z.to_nat p) (length (c_bundles cs))).
        assert (J : In n (sn s1) \/ In n (sn s2)) by (unfold s1, s2; rewrite sn_first, sn_second, <- in_app_iff, flat_map_firstn_skipn; exact Hn).
        assert (T1 := Q s1 ltac:(cbn; tauto) eq_refl). assert (T2 := Q s2 ltac:(cbn; tauto) eq_refl).
        cbn [find split_indexes]. unfold ConstructSlices. cbv zeta. cbn [nth_error]. fold s1 s2.
        destruct (in_slice E cs cu n (node_offset l) s1) eqn:I1.
        * exists 2%nat, s1. split; [exact L1|]. split; [reflexivity|]. split; [reflexivity|]. assert (In n (sn s1)) as K by tauto. split; [exact K|]. eapply (R 2%nat); [reflexivity|reflexivity|exact K].
        * assert (K : In n (sn s2)) by (destruct J as [J|J]; [apply T1 in J; congruence|exact J]). assert (in_slice E cs cu n (node_offset l) s2 = true) as -> by tauto.
          exists 1%nat, s2. split; [exact L1|]. split; [reflexivity|]. split; [reflexivity|]. split; [exact K|]. eapply (R 1%nat); [reflexivity|reflexivity|exact K].
      + set (s1 := Slice true 0 (Z.to_nat p)). set (s2 := Slice true (Z.to_nat p) (length (c_bundles cs))).
        assert (J : In n (sn s1) \/ In n (sn s2)) by (unfold s1, s2; rewrite sn_first, sn_second, <- in_app_iff, flat_map_firstn_skipn; exact Hn).
        assert (T1 := Q s1 ltac:(cbn; tauto) eq_refl). assert (T2 := Q s2 ltac:(cbn; tauto) eq_refl).
        cbn [find split_indexes]. unfold ConstructSlices. cbv zeta. cbn [nth_error]. fold s1 s2.
        destruct (in_slice E cs cu n (node_offset l) s2) eqn:I2.
        * exists 0%nat, s2. split; [exact L1|]. split; [reflexivity|]. split; [reflexivity|]. assert (In n (sn s2)) as K by tauto. split; [exact K|]. eapply (R 0%nat); [reflexivity|reflexivity|exact K].
        * assert (K : In n (sn s1)) by (destruct J as [J|J]; [exact J|apply T2 in J; congruence]). assert (in_slice E cs cu n (node_offset l) s1 = true) as -> by tauto.
          exists 2%nat, s1. split; [exact L1|]. split; [reflexivity|]. split; [reflexivity|]. split; [exact K|]. eapply (R 2%nat); [reflexivity|reflexivity|exact K].
    - destruct (U n Hn) as [l [L1 [L2 L3]]]. exists l, (unsplit_index o), (Slice false 0 (length (c_bundles cu))).
      split; [exact L1|]. unfold FindSliceIndex. rewrite L2, Z.eqb_refl. split; [reflexivity|].
      assert (X : nth_error (ConstructSlices cs cu o p) (unsplit_index o) = Some (Slice false 0 (length (c_bundles cu)))) by (destruct o; reflexivity).
      split; [exact X|]. assert (J : In n (sn (Slice false 0 (length (c_bundles cu))))) by (rewrite (sn_full false); exact Hn). split; [exact J|].
      destruct (good_offsets _ n (GS _ (nth_error_In _ _ X)) J) as [_ T]. rewrite L3. exact T.
  Qed.

  Lemma asm_NoDup o p : valid_cut cs o p -> NoDup (asm_nodes (ConstructSlices cs cu o p)).
  Proof. intros V. eapply Permutation_NoDup; [apply Permutation_sym, asm_perm; exact V|exact ND]. Qed.

  Lemma pos3 l0 l1 l2 n i : NoDup (l0 ++ l1 ++ l2) -> (i < 3)%nat -> In n (nth i [l0; l1; l2] []) ->
    pos sz (l0 ++ l1 ++ l2) n = (match i with O => 0 | 1%nat => tot sz l0 | _ => tot sz l0 + tot sz l1 end) + pos sz (nth i [l0; l1; l2] []) n.
  Proof.
    intros N Hi Hn. apply NoDup_app_inv in N as [_ [N D]]. apply NoDup_app_inv in N as [_ [N2 D2]].
    destruct i as [|[|[|]]]; [| | |lia]; cbn [nth] in *.
    - rewrite pos_app_l by exact Hn. lia.
    - rewrite pos_app_r by (intros H; apply (D n H), in_app_iff; left; exact Hn). rewrite pos_app_l by exact Hn. lia.
    - rewrite pos_app_r by (intros H; apply (D n H), in_app_iff; right; exact Hn).
      rewrite pos_app_r by (intros H; apply (D2 n H); exact Hn). lia.
  Qed.

  (** The score of an edge uses its distance in the assembled order. *)
  Lemma edge_score o p e : valid_cut cs o p -> in_both (ce_src e) -> in_both (ce_sink e) ->
    ComputeEdgeScore E lc cs cu o (ConstructSlices cs cu o p) e = Ok (e_score E e (dist sz (asm_nodes (ConstructSlices cs cu o p)) e)).
  Proof.
    intros V H1 H2. destruct (find_slice o p _ V H1) as [l1 [i1 [s1 [A1 [A2 [A3 [A4 A5]]]]]]].
    destruct (find_slice o p _ V H2) as [l2 [i2 [s2 [B1 [B2 [B3 [B4 B5]]]]]]].
    unfold ComputeEdgeScore. rewrite A1, B1, A2, B2. pose proof (asm_NoDup o p V) as N.
    pose proof (good_slices o p V) as GS. set (sls := ConstructSlices cs cu o p) in *. rewrite asm_nodes_eq in *.
    assert (GE : forall s, In s sls -> end_offset cs cu s = begin_offset cs cu s + tot sz (sn s)) by (intros; apply good_end; auto).
    assert (SH : exists a b c, (sls = [a; b] /\ c = []) \/ (exists s, sls = [a; b; s] /\ c = sn s)).
    { unfold sls, ConstructSlices. destruct o; cbv zeta; eexists _, _, _; [left; split; reflexivity|right|right|right|right]; eexists; split; reflexivity. }
    destruct SH as [a [b [c SH]]].
    assert (F : flat_map sn sls = sn a ++ sn b ++ c).
    { destruct SH as [[Q ->]|[s [Q ->]]]; rewrite Q; cbn [flat_map]; rewrite ?app_nil_r; reflexivity. }
    assert (NTH : forall i s n, nth_error sls i = Some s -> In n (sn s) -> (i < 3)%nat /\ sn s = nth i [sn a; sn b; c] []).
    { intros i s n Hi Hn. destruct SH as [[Q ->]|[s' [Q ->]]]; rewrite Q in Hi.
      - destruct i as [|[|i]]; cbn in Hi |- *; [injection Hi as <-; split; [lia|reflexivity]|injection Hi as <-; split; [lia|reflexivity]|]. destruct i; discriminate.
      - destruct i as [|[|[|i]]]; cbn in Hi |- *; [injection Hi as <-; split; [lia|reflexivity]|injection Hi as <-; split; [lia|reflexivity]|injection Hi as <-; split; [lia|reflexivity]|]. destruct i; discriminate. }
    destruct (NTH i1 s1 _ A3 A4) as [I1 S1]. destruct (NTH i2 s2 _ B3 B4) as [I2 S2].
    rewrite F in *. unfold dist.
    rewrite (pos3 (sn a) (sn b) c (ce_src e) i1 N I1) by (rewrite <- S1; exact A4).
    rewrite (pos3 (sn a) (sn b) c (ce_sink e) i2 N I2) by (rewrite <- S2; exact B4).
    rewrite <- S1, <- S2, A5, B5.
    assert (G1 := GE s1 (nth_error_In _ _ A3)). assert (G2 := GE s2 (nth_error_In _ _ B3)).
    destruct (Nat.eqb_spec i1 i2) as [EI|NI].
    - subst i2. assert (s1 = s2) by congruence. subst s2. do 2 f_equal. destruct i1 as [|[|[|]]]; lia.
    - rewrite A3, B3.
      assert (MID : match nth_error sls 1 with Some s => slice_size cs cu s | None => 0 end = tot sz (sn b)).
      { assert (nth_error sls 1 = Some b) as -> by (destruct SH as [[Q _]|[s [Q _]]]; rewrite Q; reflexivity).
        unfold slice_size. rewrite GE; [lia|]. destruct SH as [[Q _]|[s [Q _]]]; rewrite Q; cbn; tauto. }
      rewrite MID. rewrite G1, G2, S1, S2.
      destruct i1 as [|[|[|]]]; [| | |lia]; (destruct i2 as [|[|[|]]]; [| | |lia]); try congruence; cbn [nth Nat.ltb Nat.leb Nat.eqb andb]; do 2 f_equal; lia.
  Qed.

  (** * The score gain *)
  Lemma pos_mid l1 m l2 n : NoDup (l1 ++ m ++ l2) -> In n m -> pos sz (l1 ++ m ++ l2) n = tot sz l1 + pos sz m n.
  Proof.
    intros N H. apply NoDup_app_inv in N as [_ [_ D]].
    rewrite pos_app_r by (intros X; apply (D n X), in_app_iff; left; exact H). rewrite pos_app_l by exact H. reflexivity.
  Qed.
  Lemma dist_same_slice o p s e : valid_cut cs o p -> In s (ConstructSlices cs cu o p) -> In (ce_src e) (sn s) -> In (ce_sink e) (sn s) ->
    dist sz (asm_nodes (ConstructSlices cs cu o p)) e = dist sz (chain_nodes (sl_chain cs cu s)) e.
  Proof.
    intros V Hs H1 H2. pose proof (good_slices o p V s Hs) as G. pose proof (asm_NoDup o p V) as N. rewrite asm_nodes_eq in *.
    apply in_split in Hs as [l1 [l2 Q]]. rewrite Q in *. rewrite flat_map_app in *. cbn [flat_map] in *. unfold dist.
    rewrite !(pos_mid _ _ _ _ N) by assumption.
    destruct (good_offsets s _ G H1) as [_ ->]. destruct (good_offsets s _ G H2) as [_ ->]. lia.
  Qed.

  Definition outs (c d : chain) : list cedge := match aget Z.eqb (c_id d) (c_out c) with Some es => es | None => [] end.
  Definition sink_idx (e : cedge) : Z := match lc (ce_sink e) with Some (b, _) => b_index b | None => 0 end.
  (** The ends of an edge lie in different bundles. *)
  Definition apart (e : cedge) : bool :=
    match lc (ce_src e), lc (ce_sink e) with Some (b1, _), Some (b2, _) => negb (b_id b1 =? b_id b2) | _, _ => false end.
  Context (EV : list cedge)
    (HSU : Permutation (outs cs cu) (filter (from_to (chain_nodes cs) (chain_nodes cu)) EV))
    (HUS : Permutation (outs cu cs) (filter (from_to (chain_nodes cu) (chain_nodes cs)) EV))
    (HSS : Permutation (flat_map b_edges (c_bundles cs)) (filter (fun e => inside (chain_nodes cs) e && apart e) EV))
    (SRC : forall b e, In b (c_bundles cs) -> In e (b_edges b) -> In (ce_src e) (b_nodes b))
    (BID : NoDup (map b_id (c_bundles cs)))
    (SORT : forall b, In b (c_bundles cs) -> StronglySorted (fun e1 e2 => sink_idx e1 <= sink_idx e2) (b_edges b)).

  Lemma sum_scores_ok f g es : (forall e, In e es -> f e = Ok (g e)) -> sum_scores f es = Ok (sumf g es).
  Proof.
    induction es as [|e es IH]; intros H; [reflexivity|]. cbn [sum_scores]. rewrite H by (left; reflexivity). cbn [obind].
    rewrite IH by (intros; apply H; right; assumption). reflexivity.
  Qed.
  Lemma gain_bundles_ok f g bs : (forall b, In b bs -> f b = Ok (g b)) -> gain_bundles f bs = Ok (sumf g bs).
  Proof.
    induction bs as [|e es IH]; intros H; [reflexivity|]. cbn [gain_bundles]. rewrite H by (left; reflexivity). cbn [obind].
    rewrite IH by (intros; apply H; right; assumption). reflexivity.
  Qed.
  Lemma lc_of n : In n (chain_nodes cs) -> exists b, In b (c_bundles cs) /\ In n (b_nodes b) /\ lc n = Some (b, pos sz (b_nodes b) n).
  Proof. intros H. apply in_chain_nodes in H as [b [B1 B2]]. exists b. auto. Qed.
  Lemma offset_of n : In n (chain_nodes cs) -> exists l, lc n = Some l /\ node_offset l = pos sz (chain_nodes cs) n.
  Proof.
    intros H. apply in_chain_nodes in H as [b [B1 B2]]. exists (b, pos sz (b_nodes b) n). split; [apply FS; assumption|].
    apply (node_at E cs b n OS NDs B1 B2).
  Qed.
  Section Gain.
    Context (o : merge_order) (p : option Z) (V : valid_cut cs o p).
    Local Notation sls := (ConstructSlices cs cu o p).
    Local Notation L := (asm_nodes sls).
    Definition newsc (e : cedge) : Z := e_score E e (dist sz L e).
    Definition oldsc (e : cedge) : Z := e_score E e (dist sz (chain_nodes cs) e).
    Lemma edge_gain_ok e : inside (chain_nodes cs) e = true -> edge_gain E lc cs cu o sls e = Ok (newsc e - oldsc e).
    Proof.
      intros H. unfold inside in H. apply andb_true_iff in H as [H1 H2]. apply memz_In in H1, H2.
      unfold edge_gain. rewrite (edge_score o p e V) by (left; assumption). cbn [obind].
      destruct (offset_of _ H1) as [l1 [-> O1]]. destruct (offset_of _ H2) as [l2 [-> O2]].
      rewrite O1, O2. reflexivity.
    Qed.
    Lemma gain_while_ok pr es : (forall e, In e es -> inside (chain_nodes cs) e = true) ->
      StronglySorted (fun e1 e2 => pr (sink_idx e2) = true -> pr (sink_idx e1) = true) es ->
      (forall e, In e es -> pr (sink_idx e) = false -> newsc e = oldsc e) ->
      gain_while E lc cs cu pr o sls es = Ok (sumf (fun e => newsc e - oldsc e) es).
    Proof.
      induction es as [|e es IH]; intros HI HS HZ; [reflexivity|]. cbn [gain_while]. inversion HS as [|? ? HS' HF]; subst.
      assert (He := HI e (or_introl eq_refl)). assert (X : exists b q, lc (ce_sink e) = Some (b, q)).
      { unfold inside in He. apply andb_true_iff in He as [_ He]. apply memz_In in He. destruct (lc_of _ He) as [b [_ [_ Q]]]. eauto. }
      destruct X as [b [q Q]]. rewrite Q. cbn [fst]. assert (SI : sink_idx e = b_index b) by (unfold sink_idx; rewrite Q; reflexivity).
      destruct (pr (b_index b)) eqn:P.
      - rewrite (edge_gain_ok e He). cbn [obind]. rewrite IH; [reflexivity| |exact HS'|].
        + intros; apply HI; right; assumption.
        + intros; apply HZ; [right; assumption|assumption].
      - assert (A : newsc e = oldsc e) by (apply HZ; [left; reflexivity|congruence]).
        rewrite sumf_cons, A. replace (sumf (fun e => newsc e - oldsc e) es) with 0; [f_equal; lia|].
        symmetry. apply sumf_zero.
        intros x Hx. assert (newsc x = oldsc x); [|lia]. apply HZ; [right; exact Hx|]. rewrite Forall_forall in HF. specialize (HF x Hx).
        destruct (pr (sink_idx x)); [|reflexivity]. rewrite <- SI in P. rewrite HF in P by reflexivity. discriminate.
    Qed.
    Lemma recorded_inside b e : In b (c_bundles cs) -> In e (b_edges b) -> inside (chain_nodes cs) e = true.
    Proof.
      intros Hb He. assert (In e (flat_map b_edges (c_bundles cs))) as H by (apply in_flat_map; eauto).
      apply (Permutation_in _ HSS) in H. apply filter_In in H as [_ H]. apply andb_true_iff in H. tauto.
    Qed.
    Lemma newsc_same s e : In s sls -> sl_split s = true -> In (ce_src e) (sn s) -> In (ce_sink e) (sn s) -> newsc e = oldsc e.
    Proof.
      intros Hs Hsp H1 H2. unfold newsc, oldsc. rewrite (dist_same_slice o p s e V Hs H1 H2). unfold sl_chain. rewrite Hsp. reflexivity.
    Qed.
    Lemma newsc_same_u e : inside (chain_nodes cu) e = true -> newsc e = e_score E e (dist sz (chain_nodes cu) e).
    Proof.
      intros H. unfold inside in H. apply andb_true_iff in H as [H1 H2]. apply memz_In in H1, H2. unfold newsc.
      rewrite (dist_same_slice o p (Slice false 0 (length (c_bundles cu))) e V); [reflexivity| |rewrite (sn_full false); exact H1|rewrite (sn_full false); exact H2].
      unfold ConstructSlices. destruct o; cbn; tauto.
    Qed.
    (** Index of a bundle tells the slice. *)
    Lemma index_of b n : In b (c_bundles cs) -> In n (b_nodes b) -> exists l1 l2, c_bundles cs = l1 ++ b :: l2 /\ b_index b = zlen l1.
    Proof. clear SORT.
      intros Hb Hn. apply in_split in Hb as [l1 [l2 Q]]. exists l1, l2. split; [exact Q|]. destruct OS as [B _]. rewrite Q in B.
      apply bundles_at in B as [_ [B _]]. exact B.
    Qed.
    Lemma side_first k b n : In b (c_bundles cs) -> In n (b_nodes b) -> b_index b < Z.of_nat k -> In n (sn (Slice true 0 k)).
    Proof. clear SORT.
      intros Hb Hn HI. rewrite sn_first. destruct (index_of b n Hb Hn) as [l1 [l2 [Q I]]]. rewrite Q. apply in_flat_map. exists b. split; [|exact Hn].
      unfold zlen in I. rewrite firstn_app. apply in_app_iff. right. replace (k - length l1)%nat with (S (k - length l1 - 1))%nat by lia. cbn [firstn]. left. reflexivity.
    Qed.
    Lemma side_second k b n : In b (c_bundles cs) -> In n (b_nodes b) -> Z.of_nat k <= b_index b -> In n (sn (Slice true k (length (c_bundles cs)))).
    Proof. clear SORT.
      intros Hb Hn HI. rewrite sn_second. destruct (index_of b n Hb Hn) as [l1 [l2 [Q I]]]. rewrite Q. apply in_flat_map. exists b. split; [|exact Hn].
      unfold zlen in I. rewrite skipn_app. apply in_app_iff. right. replace (k - length l1)%nat with O by lia. left. reflexivity.
    Qed.
    Lemma first_index k b : In b (firstn k (c_bundles cs)) -> b_index b < Z.of_nat k.
    Proof. clear SORT.
      intros H. apply in_split in H as [l1 [l2 Q]]. destruct OS as [B _]. rewrite <- (firstn_skipn k (c_bundles cs)), Q, <- app_assoc in B.
      cbn [app] in B. apply bundles_at in B as [_ [B _]]. assert (length (firstn k (c_bundles cs)) <= k)%nat by (rewrite firstn_length; lia).
      rewrite Q, app_length in H. cbn [length] in H. unfold zlen in B. lia.
    Qed.
    Lemma second_index k b : In b (skipn k (c_bundles cs)) -> Z.of_nat k <= b_index b.
    Proof. clear SORT.
      intros H. assert (k < length (c_bundles cs))%nat as K by (destruct (Nat.lt_ge_cases k (length (c_bundles cs))); [assumption|rewrite skipn_all2 in H by lia; destruct H]).
      apply in_split in H as [l1 [l2 Q]]. destruct OS as [B _]. rewrite <- (firstn_skipn k (c_bundles cs)), Q in B.
      rewrite app_assoc in B. apply bundles_at in B as [_ [B _]]. unfold zlen in B. rewrite app_length, firstn_length in B. lia.
    Qed.
    Lemma StronglySorted_rev {A} (R : A -> A -> Prop) l : StronglySorted R l -> StronglySorted (fun x y => R y x) (rev l).
    Proof.
      clear. induction 1 as [|x l H IH HF]; cbn [rev]; [constructor|]. rewrite Forall_forall in HF.
      assert (G : forall y, In y (rev l) -> R x y) by (intros y Hy; apply HF; apply in_rev; exact Hy). clear H HF.
      induction (rev l) as [|y k IHk]; cbn [app]; [repeat constructor|]. inversion IH; subst. constructor.
      - apply IHk; [assumption|]. intros z Hz. apply G. right. exact Hz.
      - apply Forall_app. split; [assumption|]. constructor; [|constructor]. apply G. left. reflexivity.
    Qed.
    Lemma split_gain_k k : 0 < k < zlen (c_bundles cs) -> In (Slice true 0 (Z.to_nat k)) sls -> In (Slice true (Z.to_nat k) (length (c_bundles cs))) sls ->
      (let! x := gain_bundles (fun b => gain_while E lc cs cu (fun i => k <=? i) o sls (rev (b_edges b))) (firstn (Z.to_nat k) (c_bundles cs)) in
       let! y := gain_bundles (fun b => gain_while E lc cs cu (fun i => i <? k) o sls (b_edges b)) (skipn (Z.to_nat k) (c_bundles cs)) in
       Ok (x + y)) = Ok (sumf (fun e => newsc e - oldsc e) (flat_map b_edges (c_bundles cs))).
    Proof.
      intros HK IN1 IN2. assert (K : Z.of_nat (Z.to_nat k) = k) by lia.
      assert (F1 : forall b, In b (firstn (Z.to_nat k) (c_bundles cs)) -> In b (c_bundles cs)) by (intros b Hb; rewrite <- (firstn_skipn (Z.to_nat k)); apply in_app_iff; left; exact Hb).
      assert (F2 : forall b, In b (skipn (Z.to_nat k) (c_bundles cs)) -> In b (c_bundles cs)) by (intros b Hb; rewrite <- (firstn_skipn (Z.to_nat k)); apply in_app_iff; right; exact Hb).
      assert (SK : forall b e, In b (c_bundles cs) -> In e (b_edges b) -> exists b', In b' (c_bundles cs) /\ In (ce_sink e) (b_nodes b') /\ sink_idx e = b_index b').
      { intros b e Hb He. pose proof (recorded_inside b e Hb He) as H. unfold inside in H. apply andb_true_iff in H as [_ H]. apply memz_In in H.
        destruct (lc_of _ H) as [b' [B1 [B2 B3]]]. exists b'. split; [exact B1|]. split; [exact B2|]. unfold sink_idx. rewrite B3. reflexivity. }
      rewrite (gain_bundles_ok _ (fun b => sumf (fun e => newsc e - oldsc e) (b_edges b)) (firstn (Z.to_nat k) (c_bundles cs))).
      - cbn [obind]. rewrite (gain_bundles_ok _ (fun b => sumf (fun e => newsc e - oldsc e) (b_edges b)) (skipn (Z.to_nat k) (c_bundles cs))).
        + cbn [obind]. f_equal. rewrite <- sumf_app, firstn_skipn, sumf_flat_map. reflexivity.
        + intros b Hb. apply gain_while_ok.
          * intros e He. eapply recorded_inside; [apply F2; exact Hb|exact He].
          * pose proof (SORT b (F2 b Hb)) as SS. eapply StronglySorted_impl_In; [exact SS|]. cbv beta. intros. lia.
          * intros e He Hlt. destruct (SK b e (F2 b Hb) He) as [b' [B1 [B2 B3]]].
            apply (newsc_same (Slice true (Z.to_nat k) (length (c_bundles cs)))); [exact IN2|reflexivity| |].
            -- apply (side_second _ b); [apply F2; exact Hb|apply SRC; [apply F2; exact Hb|exact He]|apply second_index; exact Hb].
            -- apply (side_second _ b'); [exact B1|exact B2|lia].
      - intros b Hb. rewrite <- sumf_rev. apply gain_while_ok.
        + intros e He. apply in_rev in He. eapply recorded_inside; [apply F1; exact Hb|exact He].
        + pose proof (SORT b (F1 b Hb)) as SS. apply StronglySorted_rev in SS. eapply StronglySorted_impl_In; [exact SS|]. cbv beta. intros. lia.
        + intros e He Hlt. apply in_rev in He. destruct (SK b e (F1 b Hb) He) as [b' [B1 [B2 B3]]].
          apply (newsc_same (Slice true 0 (Z.to_nat k))); [exact IN1|reflexivity| |].
          * apply (side_first _ b); [apply F1; exact Hb|apply SRC; [apply F1; exact Hb|exact He]|apply first_index; exact Hb].
          * apply (side_first _ b'); [exact B1|exact B2|lia].
    Qed.
    Lemma split_gain_ok : ComputeSplitChainScoreGain E lc cs cu o p sls = Ok (sumf (fun e => newsc e - oldsc e) (flat_map b_edges (c_bundles cs))).
    Proof.
      assert (C : (o = kSU /\ p = None) \/ (exists k, o <> kSU /\ p = Some k /\ 0 < k < zlen (c_bundles cs))).
      { unfold valid_cut in V. destruct o, p as [k|]; try (exfalso; exact V); [left; auto|right; exists k ..]; split; try discriminate; auto. }
      destruct C as [[Eo Ep]|[k [No [Ep Hk]]]].
      - assert (ComputeSplitChainScoreGain E lc cs cu o p sls = Ok 0) as -> by (rewrite Eo; reflexivity). f_equal. symmetry. apply sumf_zero.
        intros e He. apply in_flat_map in He as [b [Hb He]]. pose proof (recorded_inside b e Hb He) as H. unfold inside in H.
        apply andb_true_iff in H as [H1 H2]. apply memz_In in H1, H2.
        rewrite (newsc_same (Slice true 0 (length (c_bundles cs))) e); [lia| |reflexivity|rewrite (sn_full true); exact H1|rewrite (sn_full true); exact H2].
        rewrite Eo. left. reflexivity.
      - rewrite <- (split_gain_k k Hk).
        + rewrite Ep. destruct o; [congruence|reflexivity ..].
        + rewrite Ep. destruct o; [congruence|cbn; tauto ..].
        + rewrite Ep. destruct o; [congruence|cbn; tauto ..].
    Qed.

    (** The blocks of the two chains are the blocks of the assembly. *)
    Lemma memz_L n : memz n L = memz n (chain_nodes cs) || memz n (chain_nodes cu).
    Proof. clear SORT.
      rewrite <- memz_app. apply eq_true_iff_eq. rewrite !memz_In.
      split; apply Permutation_in; [|apply Permutation_sym]; apply asm_perm; exact V.
    Qed.
    Lemma disjoint_SU n : memz n (chain_nodes cs) = true -> memz n (chain_nodes cu) = true -> False.
    Proof. clear SORT. rewrite !memz_In. apply NoDup_app_inv in ND as [_ [_ D]]. intros A B. exact (D n A B). Qed.
    (** An edge within one bundle keeps its distance. *)
    Lemma together_same e : inside (chain_nodes cs) e = true -> apart e = false -> newsc e = oldsc e.
    Proof. clear SORT.
      intros H A. unfold inside in H. apply andb_true_iff in H as [H1 H2]. apply memz_In in H1, H2.
      destruct (lc_of _ H1) as [b1 [B1 [N1 L1]]]. destruct (lc_of _ H2) as [b2 [B2 [N2 L2]]]. unfold apart in A. rewrite L1, L2 in A.
      assert (b1 = b2).
      { assert (X : b_id b1 = b_id b2) by (destruct (Z.eqb_spec (b_id b1) (b_id b2)); [assumption|discriminate]).
        clear - BID B1 B2 X. induction (c_bundles cs) as [|b bs IH]; [destruct B1|]. cbn [map] in BID. inversion BID; subst.
        destruct B1 as [<-|B1], B2 as [<-|B2]; auto; exfalso; apply H1; [rewrite X|rewrite <- X]; apply in_map; assumption. }
      subst b2. assert (C : (o = kSU /\ p = None) \/ (exists k, o <> kSU /\ p = Some k /\ 0 < k < zlen (c_bundles cs))).
      { unfold valid_cut in V. destruct o, p as [k|]; try (exfalso; exact V); [left; auto|right; exists k ..]; split; try discriminate; auto. }
      destruct C as [[Eo Ep]|[k [No [Ep Hk]]]].
      - apply (newsc_same (Slice true 0 (length (c_bundles cs)))); [rewrite Eo; left; reflexivity|reflexivity|rewrite (sn_full true); assumption|rewrite (sn_full true); assumption].
      - destruct (Z_lt_ge_dec (b_index b1) k) as [J|J].
        + apply (newsc_same (Slice true 0 (Z.to_nat k))); [rewrite Ep; destruct o; [congruence|cbn; tauto ..]|reflexivity| |]; apply (side_first _ b1); auto; lia.
        + apply (newsc_same (Slice true (Z.to_nat k) (length (c_bundles cs)))); [rewrite Ep; destruct o; [congruence|cbn; tauto ..]|reflexivity| |]; apply (side_second _ b1); auto; lia.
    Qed.
    (** The edges between the two chains. *)
    Lemma inter_ok : ComputeInterChainScore E lc cs cu o sls cs cu = Ok (sumf newsc (filter (from_to (chain_nodes cs) (chain_nodes cu)) EV)) /\
                     ComputeInterChainScore E lc cs cu o sls cu cs = Ok (sumf newsc (filter (from_to (chain_nodes cu) (chain_nodes cs)) EV)).
    Proof.
      rewrite <- (sumf_perm _ _ _ HSU), <- (sumf_perm _ _ _ HUS). unfold ComputeInterChainScore, outs in *. split.
      - destruct (aget Z.eqb (c_id cu) (c_out cs)) as [es|]; [|reflexivity]. apply sum_scores_ok. intros e He.
        apply (Permutation_in _ HSU), filter_In in He as [_ He]. unfold from_to in He. apply andb_true_iff in He as [H1 H2]. apply memz_In in H1, H2.
        apply edge_score; [exact V|left; exact H1|right; exact H2].
      - destruct (aget Z.eqb (c_id cs) (c_out cu)) as [es|]; [|reflexivity]. apply sum_scores_ok. intros e He.
        apply (Permutation_in _ HUS), filter_In in He as [_ He]. unfold from_to in He. apply andb_true_iff in He as [H1 H2]. apply memz_In in H1, H2.
        apply edge_score; [exact V|right; exact H1|left; exact H2].
    Qed.
    (** The exact gain, and when the code computes it. *)
    Definition exact_gain : Z :=
      layout_score (e_score E) sz EV L - layout_score (e_score E) sz EV (chain_nodes cs) - layout_score (e_score E) sz EV (chain_nodes cu).
    Lemma exact_gain_eq : exact_gain =
      sumf newsc (filter (from_to (chain_nodes cs) (chain_nodes cu)) EV) + sumf newsc (filter (from_to (chain_nodes cu) (chain_nodes cs)) EV)
      + sumf (fun e => newsc e - oldsc e) (flat_map b_edges (c_bundles cs)).
    Proof. clear SORT.
      rewrite (sumf_perm _ _ _ HSS). unfold exact_gain, layout_score. rewrite !sumf_filter, <- !sumf_minus, <- !sumf_plus.
      apply sumf_ext. intros e _. unfold inside, from_to at 1 2. rewrite !memz_L.
      pose proof (disjoint_SU (ce_src e)) as D1. pose proof (disjoint_SU (ce_sink e)) as D2.
      pose proof (together_same e) as T. pose proof (newsc_same_u e) as TU. unfold inside in T, TU. unfold newsc, oldsc in *.
      destruct (memz (ce_src e) (chain_nodes cs)), (memz (ce_sink e) (chain_nodes cs)), (memz (ce_src e) (chain_nodes cu)), (memz (ce_sink e) (chain_nodes cu)); cbn [andb orb] in *;
        try (exfalso; auto; fail); try lia.
    Qed.
    Lemma gain_ok : exists g, ComputeScoreGain E lc cs cu o p sls = Ok g /\ (g = exact_gain \/ (g = 0 /\ o <> kSU)).
    Proof.
      unfold ComputeScoreGain. destruct inter_ok as [-> ->]. cbn [obind]. rewrite exact_gain_eq.
      destruct (Z.eqb_spec (sumf newsc (filter (from_to (chain_nodes cs) (chain_nodes cu)) EV) + sumf newsc (filter (from_to (chain_nodes cu) (chain_nodes cs)) EV)) 0) as [Z0|NZ].
      - exists 0. split; [reflexivity|].
        assert (o = kSU \/ o <> kSU) as [Eo|No] by (destruct o; [left; reflexivity|right; discriminate ..]); [left|right; auto].
        pose proof split_gain_ok as SG. rewrite Eo in SG. cbn [ComputeSplitChainScoreGain] in SG. injection SG as SG. lia.
      - rewrite split_gain_ok. cbn [obind]. eexists. split; [reflexivity|]. left. reflexivity.
    Qed.
    (** Without the order of the recorded edges. *)
    Lemma gain_while_total pr es : (forall e, In e es -> inside (chain_nodes cs) e = true) -> exists x, gain_while E lc cs cu pr o sls es = Ok x.
    Proof. clear SORT.
      induction es as [|e es IH]; intros HI; [exists 0; reflexivity|]. cbn [gain_while]. assert (He := HI e (or_introl eq_refl)).
      assert (X : exists b q, lc (ce_sink e) = Some (b, q)).
      { unfold inside in He. apply andb_true_iff in He as [_ He]. apply memz_In in He. destruct (lc_of _ He) as [b [_ [_ Q]]]. eauto. }
      destruct X as [b [q Q]]. rewrite Q. cbn [fst]. destruct (pr (b_index b)); [|exists 0; reflexivity].
      rewrite (edge_gain_ok e He). cbn [obind]. destruct IH as [x Hx]; [intros; apply HI; right; assumption|]. rewrite Hx. cbn [obind]. eauto.
    Qed.
    Lemma gain_bundles_total f bs : (forall b, In b bs -> exists x, f b = Ok x) -> exists x, gain_bundles f bs = Ok x.
    Proof. clear.
      induction bs as [|b bs IH]; intros H; [exists 0; reflexivity|]. cbn [gain_bundles]. destruct (H b (or_introl eq_refl)) as [x ->]. cbn [obind].
      destruct IH as [y ->]; [intros; apply H; right; assumption|]. cbn [obind]. eauto.
    Qed.
    Lemma gain_total : exists g, ComputeScoreGain E lc cs cu o p sls = Ok g.
    Proof. clear SORT.
      unfold ComputeScoreGain. destruct inter_ok as [-> ->]. cbn [obind]. destruct (_ =? 0); [eauto|].
      assert (X : exists z, ComputeSplitChainScoreGain E lc cs cu o p sls = Ok z); [|destruct X as [z ->]; cbn [obind]; eauto].
      assert (K : forall k, exists z, (let! x := gain_bundles (fun b => gain_while E lc cs cu (fun i => k <=? i) o sls (rev (b_edges b))) (firstn (Z.to_nat k) (c_bundles cs)) in
       let! y := gain_bundles (fun b => gain_while E lc cs cu (fun i => i <? k) o sls (b_edges b)) (skipn (Z.to_nat k) (c_bundles cs)) in
       Ok (x + y)) = Ok z).
      { intros k. destruct (gain_bundles_total (fun b => gain_while E lc cs cu (fun i => k <=? i) o sls (rev (b_edges b))) (firstn (Z.to_nat k) (c_bundles cs))) as [x ->].
        { intros b Hb. apply gain_while_total. intros e He. apply in_rev in He. eapply recorded_inside; [|exact He].
          rewrite <- (firstn_skipn (Z.to_nat k)); apply in_app_iff; left; exact Hb. }
        destruct (gain_bundles_total (fun b => gain_while E lc cs cu (fun i => i <? k) o sls (b_edges b)) (skipn (Z.to_nat k) (c_bundles cs))) as [y ->].
        { intros b Hb. apply gain_while_total. intros e He. eapply recorded_inside; [|exact He].
          rewrite <- (firstn_skipn (Z.to_nat k)); apply in_app_iff; right; exact Hb. }
        cbn [obind]. eauto. }
      unfold valid_cut in V. clear - K V. destruct o, p as [k|]; try (exfalso; exact V); cbn [ComputeSplitChainScoreGain]; [exists 0; reflexivity|apply (K k) ..].
    Qed.
    Lemma gain_su : o = kSU -> ComputeScoreGain E lc cs cu o p sls = Ok exact_gain /\
      exact_gain = sumf newsc (filter (from_to (chain_nodes cs) (chain_nodes cu)) EV) + sumf newsc (filter (from_to (chain_nodes cu) (chain_nodes cs)) EV).
    Proof. clear SORT.
      intros Eo. assert (Q : exact_gain = sumf newsc (filter (from_to (chain_nodes cs) (chain_nodes cu)) EV) + sumf newsc (filter (from_to (chain_nodes cu) (chain_nodes cs)) EV)).
      { rewrite exact_gain_eq. assert (sumf (fun e => newsc e - oldsc e) (flat_map b_edges (c_bundles cs)) = 0) as ->; [|lia]. apply sumf_zero.
        intros e He. apply in_flat_map in He as [b [Hb He]]. pose proof (recorded_inside b e Hb He) as H. unfold inside in H.
        apply andb_true_iff in H as [H1 H2]. apply memz_In in H1, H2.
        rewrite (newsc_same (Slice true 0 (length (c_bundles cs))) e); [lia| |reflexivity|rewrite (sn_full true); exact H1|rewrite (sn_full true); exact H2].
        rewrite Eo. left. reflexivity. }
      split; [|exact Q]. unfold ComputeScoreGain. destruct inter_ok as [-> ->]. cbn [obind]. rewrite Q. 
      destruct (Z.eqb_spec (sumf newsc (filter (from_to (chain_nodes cs) (chain_nodes cu)) EV) + sumf newsc (filter (from_to (chain_nodes cu) (chain_nodes cs)) EV)) 0) as [Z0|NZ].
      - rewrite Z0. reflexivity.
      - assert (ComputeSplitChainScoreGain E lc cs cu o p sls = Ok 0) as -> by (rewrite Eo; reflexivity). cbn [obind]. f_equal. lia.
    Qed.
  End Gain.
End Asm.
