(** Proofs about the walk over the layout. *)
From Verif Require Import Base ISort ForcedModel ChainModel ChainSpec ChainAsmProofs ChainBuildModel ChainBuildSpec ClusterModel ClusterSpec ClusterProofs LayoutModel LayoutSpec.

Lemma numbered_app {A} (l k : list A) : forall i, numbered i (l ++ k) = numbered i l ++ numbered (i + zlen l) k.
Proof.
  induction l as [|x l IH]; intros i; cbn [app numbered]; [rewrite zlen_nil, Z.add_0_r; reflexivity|]. rewrite IH. do 3 f_equal. rewrite zlen_cons. lia.
Qed.
Lemma numbered_snd {A} (l : list A) : forall i, map snd (numbered i l) = l.
Proof. induction l as [|x l IH]; intros i; [reflexivity|]. cbn [numbered map snd]. rewrite IH. reflexivity. Qed.
Lemma numbered_map {A B} (f : A -> B) (l : list A) : forall i, numbered i (map f l) = map (fun p => (fst p, f (snd p))) (numbered i l).
Proof. induction l as [|x l IH]; intros i; [reflexivity|]. cbn [numbered map fst snd]. rewrite IH. reflexivity. Qed.
Lemma numbered_In {A} (l : list A) : forall i j x, In (j, x) (numbered i l) -> i <= j < i + zlen l /\ In x l.
Proof.
  induction l as [|y l IH]; intros i j x H; [destruct H|]. unfold zlen in *. cbn [numbered length] in *. destruct H as [H|H].
  - injection H as <- <-. split; [lia|left; reflexivity].
  - apply IH in H as [A1 A2]. split; [lia|right; exact A2].
Qed.
Lemma numbered_NoDup {A} (l : list A) : forall i, NoDup (map fst (numbered i l)).
Proof.
  induction l as [|y l IH]; intros i; [constructor|]. cbn [numbered map fst]. constructor; [|apply IH].
  intros H. apply in_map_iff in H as [[j x] [Q H]]. cbn in Q. apply numbered_In in H. lia.
Qed.
Lemma numbered_fst {A} (l : list A) : forall i, map fst (numbered i l) = map (fun k => i + Z.of_nat k) (seq 0 (length l)).
Proof.
  induction l as [|y l IH]; intros i; [reflexivity|]. cbn [numbered map fst length seq]. rewrite IH, <- seq_shift, map_map. f_equal; [lia|]. apply map_ext. intros k. lia.
Qed.
Lemma firsts_In l x : In x (firsts l) <-> In x l.
Proof.
  induction l as [|y l IH]; [reflexivity|]. cbn [firsts In]. rewrite filter_In, IH. destruct (Z.eqb_spec x y) as [->|N]; cbn [negb]; intuition congruence.
Qed.
Lemma firsts_nodup l : NoDup (firsts l).
Proof.
  induction l as [|y l IH]; cbn [firsts]; [constructor|]. constructor; [|apply NoDup_filter; exact IH]. rewrite filter_In, Z.eqb_refl. intros [_ X]. discriminate.
Qed.
Lemma firsts_snoc l x : firsts (l ++ [x]) = if existsb (Z.eqb x) l then firsts l else firsts l ++ [x].
Proof.
  induction l as [|y l IH]; [reflexivity|]. cbn [app firsts existsb]. rewrite IH. destruct (Z.eqb_spec x y) as [->|N]; cbn [orb].
  - destruct (existsb (Z.eqb y) l); [reflexivity|]. f_equal. rewrite filter_app. cbn [filter]. rewrite Z.eqb_refl. cbn [negb]. apply app_nil_r.
  - destruct (existsb (Z.eqb x) l); [reflexivity|]. cbn [app]. f_equal. rewrite filter_app. cbn [filter]. destruct (Z.eqb_spec x y); [congruence|]. reflexivity.
Qed.

Section Walk.
  Context (L : lparams) (orig opt : list (Z * (Z * Z))).
  Let P := q_prog (l_C L).
  Context (so sp : Z -> Z * Z).
  Definition clusters_in (G : list (Z * list Z)) (f : Z) : list bbcluster :=
    map (fun p => BBCluster (fst p) (snd (snd p))) (filter (fun p => fst (snd p) =? f) (numbered 0 G)).
  Definition infos_of (G : list (Z * list Z)) : list finfo :=
    map (fun p => FInfo (snd p) (clusters_in G (snd p)) (so (snd p)) (sp (snd p)) (fst p)) (numbered 0 (firsts (map fst G))).
  Definition last_func (G : list (Z * list Z)) : Z := fst (last G (-1, [])).

  Lemma infos_func G : map z_func (infos_of G) = firsts (map fst G).
  Proof. unfold infos_of. rewrite map_map. cbn [z_func]. apply numbered_snd. Qed.
  Lemma has_info_iff f G : has_info f (infos_of G) = existsb (Z.eqb f) (map fst G).
  Proof.
    apply eq_iff_eq_true. unfold has_info. rewrite !existsb_exists. split.
    - intros [z [H Q]]. apply Z.eqb_eq in Q. exists f. split; [|apply Z.eqb_refl]. apply firsts_In. rewrite <- infos_func, <- Q. apply in_map. exact H.
    - intros [x [H Q]]. apply Z.eqb_eq in Q. subst x. apply firsts_In in H. rewrite <- infos_func in H. apply in_map_iff in H as [z [Q H]]. exists z. split; [exact H|]. rewrite Q. apply Z.eqb_refl.
  Qed.
  Lemma clusters_new G f n f' : clusters_in (G ++ [(f, [n])]) f' = clusters_in G f' ++ (if f =? f' then [BBCluster (zlen G) [n]] else []).
  Proof.
    unfold clusters_in. rewrite numbered_app, filter_app, map_app. f_equal. cbn [numbered filter map fst snd]. destruct (f =? f'); reflexivity.
  Qed.
  Lemma push_last_app n l y : push_last n (l ++ [y]) = l ++ [BBCluster (y_index y) (y_blocks y ++ [n])].
  Proof. induction l as [|x l IH]; [reflexivity|]. cbn [app push_last]. rewrite IH. destruct (l ++ [y]) eqn:Q; [destruct l; discriminate|]. reflexivity. Qed.
  Lemma clusters_push G f b n f' : clusters_in (G ++ [(f, b ++ [n])]) f' = if f =? f' then push_last n (clusters_in (G ++ [(f, b)]) f') else clusters_in (G ++ [(f, b)]) f'.
  Proof.
    unfold clusters_in. rewrite !numbered_app, !filter_app, !map_app. cbn [numbered filter map fst snd]. destruct (f =? f'); cbn [map].
    - rewrite push_last_app. reflexivity.
    - reflexivity.
  Qed.
  Lemma upd_infos f u (l : list (Z * Z)) (h : Z -> list bbcluster) (h' : Z -> list bbcluster) :
    (forall c, u (FInfo f (h f) (so f) (sp f) c) = FInfo f (h' f) (so f) (sp f) c) ->
    upd_info f u (map (fun p => FInfo (snd p) (h (snd p)) (so (snd p)) (sp (snd p)) (fst p)) l) =
    map (fun p => FInfo (snd p) (if snd p =? f then h' f else h (snd p)) (so (snd p)) (sp (snd p)) (fst p)) l.
  Proof.
    intros H. unfold upd_info. rewrite map_map. apply map_ext. intros [c x]. cbn [fst snd z_func]. destruct (Z.eqb_spec x f) as [->|N]; [|reflexivity].
    apply H.
  Qed.

  (** The groups after some more blocks. *)
  Definition extend (G : list (Z * list Z)) (n : Z) : list (Z * list Z) :=
    if negb (last_func G =? p_func P n) || p_entry P n then G ++ [(p_func P n, [n])]
    else removelast G ++ [(fst (last G (-1, [])), snd (last G (-1, [])) ++ [n])].
  Lemma last_func_snoc G f b : last_func (G ++ [(f, b)]) = f.
  Proof. unfold last_func. rewrite last_last. reflexivity. Qed.

  Lemma walk_ok ns : (forall n, In n ns -> 0 <= p_func P n /\ score_at orig (p_func P n) = Some (so (p_func P n)) /\ score_at opt (p_func P n) = Some (sp (p_func P n))) ->
    forall G, walk L orig opt (last_func G) (zlen G) (zlen (firsts (map fst G))) (infos_of G) ns = Ok (infos_of (fold_left extend ns G)).
  Proof.
    induction ns as [|n ns IH]; intros H G; [reflexivity|]. cbn [walk fold_left]. fold P.
    assert (IH' := IH (fun m Hm => H m (or_intror Hm))). clear IH. destruct (H n (or_introl eq_refl)) as [F0 [S1 S2]]. unfold extend at 2.
    destruct (negb (last_func G =? p_func P n) || p_entry P n) eqn:NEW.
    - rewrite S1, S2. set (f := p_func P n) in *. rewrite has_info_iff. specialize (IH' (G ++ [(f, [n])])). rewrite last_func_snoc in IH'.
      rewrite map_app in IH'. cbn [map fst] in IH'. rewrite firsts_snoc in IH'. rewrite zlen_app, zlen_cons, zlen_nil, Z.add_0_r in IH'.
      assert (E : forall l, upd_info f (push_block n) (upd_info f (start_cluster (zlen G)) (map (fun p => FInfo (snd p) (clusters_in G (snd p)) (so (snd p)) (sp (snd p)) (fst p)) l)) =
                    map (fun p => FInfo (snd p) (clusters_in (G ++ [(f, [n])]) (snd p)) (so (snd p)) (sp (snd p)) (fst p)) l).
      { intros l. rewrite (upd_infos f (start_cluster (zlen G)) l (clusters_in G) (fun x => clusters_in G x ++ [BBCluster (zlen G) []])).
        2:{ intros c. reflexivity. }
        rewrite (upd_infos f (push_block n) l (fun x => if x =? f then clusters_in G f ++ [BBCluster (zlen G) []] else clusters_in G x) (fun x => clusters_in G f ++ [BBCluster (zlen G) [n]])).
        2:{ intros c. unfold push_block. cbn [z_func z_clusters z_orig z_opt z_cold]. rewrite Z.eqb_refl, push_last_app. reflexivity. }
        apply map_ext. intros [c x]. cbn [fst snd]. rewrite clusters_new, (Z.eqb_sym f x). destruct (Z.eqb_spec x f) as [->|]; [reflexivity|]. rewrite app_nil_r. reflexivity. }
      destruct (existsb (Z.eqb f) (map fst G)) eqn:X.
      + unfold infos_of at 1. rewrite E. unfold infos_of in IH' at 1. rewrite map_app in IH'. cbn [map fst] in IH'. rewrite firsts_snoc, X in IH'. rewrite <- IH'. reflexivity.
      + assert (CN : clusters_in G f = []).
        { unfold clusters_in. assert (FN : filter (fun p : Z * (Z * list Z) => fst (snd p) =? f) (numbered 0 G) = []); [|rewrite FN; reflexivity].
          destruct (filter _ _) as [|p l] eqn:FQ; [reflexivity|]. exfalso. assert (Hp : In p (filter (fun p : Z * (Z * list Z) => fst (snd p) =? f) (numbered 0 G))) by (rewrite FQ; left; reflexivity).
          apply filter_In in Hp as [Hp Q]. apply Z.eqb_eq in Q. assert (X2 : existsb (Z.eqb f) (map fst G) = true); [|congruence].
          apply existsb_exists. exists f. split; [|apply Z.eqb_refl]. rewrite <- Q. apply in_map. rewrite <- (numbered_snd G 0). apply in_map. exact Hp. }
        assert (M1 : infos_of G ++ [FInfo f [] (so f) (sp f) (zlen (firsts (map fst G)))] =
                     map (fun p => FInfo (snd p) (clusters_in G (snd p)) (so (snd p)) (sp (snd p)) (fst p)) (numbered 0 (firsts (map fst G) ++ [f]))).
        { unfold infos_of. rewrite numbered_app, map_app. cbn [numbered map fst snd]. rewrite CN, Z.add_0_l. reflexivity. }
        rewrite M1, E. unfold infos_of in IH' at 1. rewrite map_app in IH'. cbn [map fst] in IH'. rewrite firsts_snoc, X in IH'. rewrite zlen_app, zlen_cons, zlen_nil, Z.add_0_r in IH'. rewrite <- IH'. reflexivity.
    - apply orb_false_iff in NEW as [NEW _]. apply negb_false_iff, Z.eqb_eq in NEW. destruct G as [|g0 G0 _] using rev_ind; [unfold last_func in NEW; cbn in NEW; lia|]. destruct g0 as [f b].
      rewrite last_func_snoc in *. rewrite has_info_iff, map_app, existsb_app. cbn [map fst existsb]. rewrite Z.eqb_refl; cbn [orb]; rewrite orb_true_r.
      specialize (IH' (G0 ++ [(f, b ++ [n])])). rewrite removelast_last, last_last. cbn [fst snd]. rewrite last_func_snoc in IH'.
      assert (QM : map fst (G0 ++ [(f, b ++ [n])]) = map fst (G0 ++ [(f, b)])) by (rewrite !map_app; reflexivity). rewrite QM in IH'. rewrite !zlen_app, !zlen_cons, !zlen_nil in *. rewrite <- IH'.
      rewrite map_app. cbn [map fst]. f_equal. unfold infos_of. rewrite QM.
      rewrite (upd_infos f (push_block n) _ (clusters_in (G0 ++ [(f, b)])) (fun x => push_last n (clusters_in (G0 ++ [(f, b)]) x))).
      + rewrite !map_app. cbn [map fst]. apply map_ext. intros [c x]. cbn [fst snd]. rewrite clusters_push, (Z.eqb_sym f x). destruct (Z.eqb_spec x f) as [->|]; reflexivity.
      + intros c. reflexivity.
  Qed.

  (** These are groups. *)
  Lemma extend_groups ns G n : 0 <= p_func P n -> groups (p_func P) (p_entry P) ns G -> groups (p_func P) (p_entry P) (ns ++ [n]) (extend G n).
  Proof.
    intros F0 [G1 G2 G3 G4]. unfold extend. destruct (negb (last_func G =? p_func P n) || p_entry P n) eqn:NEW.
    - split.
      + rewrite flat_map_app, G1. reflexivity.
      + intros f b H. apply in_app_iff in H as [H|[H|[]]]; [apply G2; exact H|]. injection H as <- <-. split; [discriminate|]. intros m [->|[]]. reflexivity.
      + intros f b m H. apply in_app_iff in H as [H|[H|[]]]; [apply (G3 f b m H)|]. injection H as <- <-. intros [].
      + intros X f b f' b' Y Q. destruct Y as [|y Y _] using rev_ind.
        * assert (Q1 : G ++ [(p_func P n, [n])] = (X ++ [(f, b)]) ++ [(f', b')]) by (rewrite Q, <- app_assoc; reflexivity). apply app_inj_tail in Q1 as [Q1 Q2]. injection Q2 as <- <-. cbn [hd].
          rewrite Q1, last_func_snoc in NEW. apply orb_true_iff in NEW as [NEW|NEW]; [left|right; exact NEW]. apply negb_true_iff, Z.eqb_neq in NEW. exact NEW.
        * assert (Q1 : G ++ [(p_func P n, [n])] = (X ++ (f, b) :: (f', b') :: Y) ++ [y]) by (rewrite Q, <- app_assoc; reflexivity). apply app_inj_tail in Q1 as [Q1 _]. apply (G4 _ _ _ _ _ _ Q1).
    - apply orb_false_iff in NEW as [NEW NE]. apply negb_false_iff, Z.eqb_eq in NEW. destruct G as [|g0 G0 _] using rev_ind; [unfold last_func in NEW; cbn in NEW; lia|]. destruct g0 as [f0 b0].
      rewrite last_func_snoc in NEW. rewrite removelast_last, last_last. cbn [fst snd]. destruct (G2 f0 b0 ltac:(apply in_app_iff; right; left; reflexivity)) as [NB FB]. split.
      + rewrite flat_map_app in *. cbn [flat_map snd] in *. rewrite app_nil_r in *. rewrite <- G1, app_assoc. reflexivity.
      + intros f b H. apply in_app_iff in H as [H|[H|[]]]; [apply G2, in_app_iff; left; exact H|]. injection H as <- <-. split; [destruct b0; discriminate|].
        intros m Hm. apply in_app_iff in Hm as [Hm|[<-|[]]]; [apply FB; exact Hm|congruence].
      + intros f b m H. apply in_app_iff in H as [H|[H|[]]]; [apply (G3 f b m), in_app_iff; left; exact H|]. injection H as <- <-. destruct b0 as [|x b0]; [congruence|]. cbn [app tl]. intros Hm.
        apply in_app_iff in Hm as [Hm|[<-|[]]]; [|exact NE]. apply (G3 f0 (x :: b0) m); [apply in_app_iff; right; left; reflexivity|exact Hm].
      + intros X f b f' b' Y Q. destruct Y as [|y Y _] using rev_ind.
        * assert (Q1 : G0 ++ [(f0, b0 ++ [n])] = (X ++ [(f, b)]) ++ [(f', b')]) by (rewrite Q, <- app_assoc; reflexivity). apply app_inj_tail in Q1 as [Q1 Q2]. injection Q2 as <- <-.
          destruct b0 as [|x b0]; [congruence|]. cbn [app hd]. apply (G4 X f b f0 (x :: b0) []). rewrite Q1, <- app_assoc. reflexivity.
        * assert (Q1 : G0 ++ [(f0, b0 ++ [n])] = (X ++ (f, b) :: (f', b') :: Y) ++ [y]) by (rewrite Q, <- app_assoc; reflexivity). apply app_inj_tail in Q1 as [Q1 _]. apply (G4 X f b f' b' (Y ++ [(f0, b0)])). rewrite Q1, <- app_assoc. reflexivity.
  Qed.
  Lemma fold_groups ns : (forall n, In n ns -> 0 <= p_func P n) -> forall pre G, groups (p_func P) (p_entry P) pre G -> groups (p_func P) (p_entry P) (pre ++ ns) (fold_left extend ns G).
  Proof.
    induction ns as [|n ns IH]; intros H pre G HG; cbn [fold_left]; [rewrite app_nil_r; exact HG|].
    replace (pre ++ n :: ns) with ((pre ++ [n]) ++ ns) by (rewrite <- app_assoc; reflexivity). apply IH; [intros; apply H; right; assumption|]. apply extend_groups; [apply H; left; reflexivity|exact HG].
  Qed.

  (** All clusters of the infos. *)
  Lemma split_by (l : list (Z * (Z * list Z))) (fs : list Z) : NoDup fs -> (forall p, In p l -> In (fst (snd p)) fs) ->
    Permutation (flat_map (fun f => filter (fun p => fst (snd p) =? f) l) fs) l.
  Proof.
    revert l. induction fs as [|f fs IH]; intros l N H.
    - destruct l as [|p l]; [constructor|]. destruct (H p (or_introl eq_refl)).
    - inversion N as [|? ? N1 N2]; subst. cbn [flat_map]. 
      assert (X : flat_map (fun f0 => filter (fun p => fst (snd p) =? f0) l) fs = flat_map (fun f0 => filter (fun p => fst (snd p) =? f0) (filter (fun p => negb (fst (snd p) =? f)) l)) fs).
      { clear - N1. induction fs as [|g fs IH]; [reflexivity|]. cbn [flat_map]. rewrite IH by (intros Q; apply N1; right; exact Q). f_equal.
        assert (NG : g <> f) by (intros ->; apply N1; left; reflexivity). clear - NG. induction l as [|p l IH]; [reflexivity|]. cbn [filter]. destruct (Z.eqb_spec (fst (snd p)) f) as [E|E]; cbn [negb filter].
        - destruct (Z.eqb_spec (fst (snd p)) g); [congruence|exact IH].
        - destruct (Z.eqb_spec (fst (snd p)) g); [rewrite IH; reflexivity|exact IH]. }
      rewrite X. eapply perm_trans; [apply Permutation_app_head, IH; [exact N2|]|].
      + intros p Hp. apply filter_In in Hp as [Hp Q]. destruct (H p Hp) as [E|E]; [rewrite E, Z.eqb_refl in Q; discriminate|exact E].
      + clear. induction l as [|p l IH]; [constructor|]. cbn [filter]. destruct (fst (snd p) =? f); cbn [negb app]; [constructor; exact IH|].
        eapply perm_trans; [apply Permutation_sym, Permutation_middle|]. constructor. exact IH.
  Qed.
  Lemma infos_clusters G : Permutation (all_clusters (infos_of G)) (numbered 0 G).
  Proof.
    eapply perm_trans; [|apply (split_by (numbered 0 G) (firsts (map fst G)) (firsts_nodup _))].
    - unfold all_clusters, infos_of. rewrite !flat_map_concat_map, map_map. cbn [z_clusters z_func].
      rewrite <- (numbered_snd (firsts (map fst G)) 0) at 2. rewrite map_map. apply Permutation_refl'. f_equal. apply map_ext. intros [c f]. cbn [snd]. unfold clusters_in. rewrite map_map.
      assert (X : forall l, map (fun p : Z * (Z * list Z) => (fst p, (f, snd (snd p)))) (filter (fun p => fst (snd p) =? f) l) = filter (fun p => fst (snd p) =? f) l).
      { clear. induction l as [|[i [x b]] l IH]; [reflexivity|]. cbn [filter fst snd]. destruct (Z.eqb_spec x f) as [->|]; [cbn [map fst snd]; rewrite IH; reflexivity|exact IH]. }
      cbn [y_index y_blocks fst snd]. apply X.
    - intros p Hp. apply firsts_In. apply in_map. rewrite <- (numbered_snd G 0). apply in_map. exact Hp.
  Qed.
  Lemma infos_cold G : map (fun z => (z_cold z, z_func z)) (infos_of G) = numbered 0 (firsts (map fst G)).
  Proof. unfold infos_of. rewrite map_map. cbn [z_cold z_func]. rewrite (map_ext _ (fun p => p)), map_id; [reflexivity|]. intros []. reflexivity. Qed.
  Lemma infos_nonempty G z : In z (infos_of G) -> z_clusters z <> [].
  Proof.
    intros H. unfold infos_of in H. apply in_map_iff in H as [[c f] [<- H]]. cbn [z_clusters snd]. apply (in_map snd) in H. rewrite numbered_snd in H. cbn [snd] in H. apply firsts_In, in_map_iff in H as [[f' b] [Q H]]. cbn [fst] in Q. subst f'.
    rewrite <- (numbered_snd G 0) in H. apply in_map_iff in H as [[i fb] [Q H]]. cbn [snd] in Q. subst fb. unfold clusters_in. intros E. apply map_eq_nil in E.
    assert (X : In (i, (f, b)) (filter (fun p => fst (snd p) =? f) (numbered 0 G))) by (apply filter_In; split; [exact H|cbn [fst snd]; apply Z.eqb_refl]). rewrite E in X. destruct X.
  Qed.
  Lemma infos_scores G z : In z (infos_of G) -> z_orig z = so (z_func z) /\ z_opt z = sp (z_func z).
  Proof. intros H. unfold infos_of in H. apply in_map_iff in H as [[c f] [<- H]]. auto. Qed.
End Walk.
