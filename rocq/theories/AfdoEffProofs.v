(** (B) What reading a written function does to the observations of a profile. *)
From Verif Require Import Base SrcOffsetModel SymbolModel SymbolSpec
  SymbolProofs AttribProofs AfdoModel AfdoReadProofs.

(** sum of all counts of a function and of everything inlined into it *)
Fixpoint sumc (s : symbol) : Z :=
  match s with
  | Sym _ _ _ pos cs =>
      fold_right (fun li a => p_count (snd li) + a) 0 pos
      + fold_right (fun kc a => sumc (snd kc) + a) 0 cs
  end.
Definition below (s : symbol) (q : path) : Z :=
  match node_at s q with Some n => sumc n | None => 0 end.

(** the rest of a path below P *)
Fixpoint sub (P q : path) : option path :=
  match P, q with
  | [], _ => Some q
  | k :: P', k' :: q' => if callsite_eqb k k' then sub P' q' else None
  | _ :: _, [] => None
  end.
Lemma sub_app P q : sub P (P ++ q) = Some q.
Proof.
  induction P as [|k P IH]; cbn [sub app]; auto.
  destruct (callsite_eqb_spec k k); [auto|congruence].
Qed.
Lemma sub_Some P : forall q r, sub P q = Some r <-> q = P ++ r.
Proof.
  split.
  - revert q r. induction P as [|k P IH]; intros q r; cbn [sub app]; [congruence|].
    destruct q as [|k' q]; [discriminate|]. destruct (callsite_eqb_spec k k') as [<-|]; [|discriminate].
    intros H. f_equal. auto.
  - intros ->. apply sub_app.
Qed.
Lemma sub_snoc P k : forall q, sub (P ++ [k]) q =
  match sub P q with Some (k' :: q') => if callsite_eqb k k' then Some q' else None | _ => None end.
Proof.
  induction P as [|x P IH]; intros q; cbn [sub app].
  - destruct q; reflexivity.
  - destruct q as [|k' q]; [reflexivity|]. destruct (callsite_eqb x k'); [apply IH|reflexivity].
Qed.
Lemma path_eqb_sub q P : path_eqb q P = match sub P q with Some [] => true | _ => false end.
Proof.
  revert q. induction P as [|k P IH]; intros [|k' q]; cbn [path_eqb sub]; auto.
  destruct (callsite_eqb_spec k' k) as [->|N], (callsite_eqb_spec k k) as [_|X]; try congruence.
  - cbn [andb]. apply IH.
  - cbn [andb]. destruct (callsite_eqb_spec k k'); [congruence|reflexivity].
Qed.
Lemma is_prefix_snoc q P k : is_prefix q (P ++ [k]) =
  match sub P q with
  | None => is_prefix q P
  | Some [] => true
  | Some [k'] => callsite_eqb k' k
  | Some _ => false
  end.
Proof.
  revert q. induction P as [|x P IH]; intros q; cbn [app sub is_prefix].
  - destruct q as [|k' [|k'' q]]; cbn [is_prefix]; auto; [rewrite andb_true_r; auto|].
    rewrite andb_false_r. reflexivity.
  - destruct q as [|k' q]; cbn [is_prefix]; auto.
    destruct (callsite_eqb_spec k' x) as [->|N].
    + destruct (callsite_eqb_spec x x); [|congruence]. cbn [andb]. rewrite IH. reflexivity.
    + destruct (callsite_eqb_spec x k'); [congruence|]. reflexivity.
Qed.
Lemma is_prefix_sub q P : is_prefix q P = true -> sub P q = None \/ sub P q = Some [].
Proof.
  revert q. induction P as [|k P IH]; intros [|k' q]; cbn [is_prefix sub]; auto; try discriminate.
  rewrite andb_true_iff. intros [E H]. destruct (callsite_eqb k k'); auto.
Qed.
Lemma is_prefix_refl P : is_prefix P P = true.
Proof.
  induction P as [|k P IH]; cbn [is_prefix]; auto. destruct (callsite_eqb_spec k k); [auto|congruence].
Qed.
Lemma is_prefix_app q r : is_prefix q (q ++ r) = true.
Proof.
  induction q as [|k q IH]; cbn [is_prefix app]; auto.
  destruct (callsite_eqb_spec k k); [auto|congruence].
Qed.
Lemma is_prefix_iff q P : is_prefix q P = true <-> exists r, P = q ++ r.
Proof.
  split.
  - revert P. induction q as [|k q IH]; intros P; cbn [is_prefix]; [intros _; exists P; reflexivity|].
    destruct P as [|k' P]; [intros; discriminate|]. destruct (callsite_eqb_spec k k') as [<-|]; [|cbn; intros; discriminate].
    cbn [andb]. intros H. destruct (IH _ H) as [r ->]. exists r. reflexivity.
  - intros [r ->]. apply is_prefix_app.
Qed.

Section Eff.
  Variables (base : Z -> Z) (orig : name -> name).
  Notation act_count := (act_count base). Notation act_target := (act_target base orig).
  Notation eff_targets := (eff_targets base orig). Notation eff_pos := (eff_pos base orig).
  Notation eff_sym := (eff_sym base orig). Notation eff_calls := (eff_calls base orig).

  (** the path of the node for function [n] inlined through [stack] *)
  Definition path_of (n : name) (stack : list sinfo) : path :=
    stack_path base false (rev (SInfo n 0 0 0 :: stack)).

  Lemma stack_path_last l : forall i i', si_func i = si_func i' ->
    stack_path base false (l ++ [i]) = stack_path base false (l ++ [i']).
  Proof.
    induction l as [|x l IH]; intros i i' E; [reflexivity|].
    destruct l as [|y l]; cbn [app].
    - rewrite !stack_path_cons. cbn [andb]. rewrite E. reflexivity.
    - rewrite !stack_path_cons. cbn [andb]. f_equal. apply (IH _ _ E).
  Qed.
  Lemma stack_path_snoc l : forall i j,
    stack_path base false (l ++ [i; j]) = stack_path base false (l ++ [i]) ++ [(si_offset base i, si_func j)].
  Proof.
    induction l as [|x l IH]; intros i j; [reflexivity|].
    destruct l as [|y l]; cbn [app].
    - rewrite !stack_path_cons. cbn [andb app]. reflexivity.
    - rewrite !stack_path_cons. cbn [andb app]. f_equal. apply (IH i j).
  Qed.
  Lemma path_of_leaf leaf stack : stack_path base false (rev (leaf :: stack)) = path_of (si_func leaf) stack.
  Proof. unfold path_of. cbn [rev]. apply stack_path_last. reflexivity. Qed.
  Lemma path_of_nested n leaf stack :
    path_of n (leaf :: stack) = path_of (si_func leaf) stack ++ [(si_offset base leaf, n)].
  Proof.
    rewrite <- path_of_leaf. unfold path_of. cbn [rev]. rewrite <- app_assoc. cbn [app].
    apply stack_path_snoc.
  Qed.

  (** a location that survives compression (and the discriminator flag) *)
  Definition loc_ok (l : Z) : Prop := forall n, si_offset base (entry n l) = l.

  Definition comb (i : pinfo) (o : option pinfo) : pinfo :=
    let p := match o with Some p => p | None => pinfo0 end in
    PInfo (add64 (p_count p) (p_count i)) (add64 (p_ninst p) 1)
      (fold_left (fun m tc => aset name_eqb (orig (fst tc)) (snd tc) m) (p_targets i) (p_targets p)).

  Definition tot_ok (s : symbol) : Prop := forall q, is_u64 (total_at s q).

  Lemma rev_ne (x : sinfo) l : rev (x :: l) <> [].
  Proof. intros E. apply (f_equal (@length sinfo)) in E. rewrite rev_length in E. discriminate. Qed.

  Lemma eff_targets_obs n stack l ts : loc_ok l -> forall cur p0, tot_ok cur ->
    pos_at cur (path_of n stack) l = Some p0 ->
    let P := path_of n stack in
    let cur' := eff_targets stack (entry n l) ts cur in
    forall q,
      (exists b, has_node cur' q = has_node cur q || (b && is_prefix q P)) /\
      total_at cur' q = total_at cur q /\ head_at cur' q = head_at cur q /\
      forall l', pos_at cur' q l' =
        if path_eqb q P && (l' =? l)
        then Some (PInfo (p_count p0) (p_ninst p0)
               (fold_left (fun m tc => aset name_eqb (orig (fst tc)) (snd tc) m) ts (p_targets p0)))
        else pos_at cur q l'.
  Proof.
    intros L. induction ts as [|[t c] ts IH]; intros cur p0 T E P cur' q; fold P in E.
    - split; [exists false; cbn; rewrite orb_false_r; reflexivity|]. repeat split.
      intros l'. cbn [fold_left]. destruct (path_eqb_spec q P) as [->|]; cbn [andb]; auto.
      destruct (Z.eqb_spec l' l) as [->|]; auto. subst cur'. cbn [eff_targets fold_left]. rewrite E.
      destruct p0; reflexivity.
    - set (cur1 := act_target stack (entry n l) t c cur).
      assert (O : forall q,
        has_node cur1 q = has_node cur q || is_prefix q P /\
        total_at cur1 q = total_at cur q /\ head_at cur1 q = head_at cur q /\
        (forall l', pos_at cur1 q l' = if path_eqb q P && (l' =? l)
           then Some (PInfo (p_count p0) (p_ninst p0) (aset name_eqb (orig t) c (p_targets p0)))
           else pos_at cur q l')).
      { intros q0.
        pose proof (osn_obs base false 0 (si_offset base (entry n l))
          (fun p => PInfo (p_count p) (p_ninst p) (aset name_eqb (orig t) c (p_targets p))) true
          (rev (entry n l :: stack)) (rev_ne _ _) cur q0) as (A1 & A2 & A3 & A4).
        change (on_stack_node base false 0 _ (rev (entry n l :: stack)) cur) with cur1 in A1, A2, A3, A4.
        rewrite path_of_leaf in A1, A2, A4. rewrite (L n) in A4. change (si_func (entry n l)) with n in A1, A2, A4.
        fold P in A1, A2, A4.
        split; [exact A1|]. split; [rewrite A2; destruct (is_prefix q0 P); auto; apply add64_0_r, T|].
        split; [exact A3|]. intros l'. rewrite A4. cbn [andb]. rewrite E. reflexivity. }
      assert (T1 : tot_ok cur1).
      { intros q0. destruct (O q0) as (_ & -> & _). apply T. }
      assert (E1 : pos_at cur1 P l = Some (PInfo (p_count p0) (p_ninst p0) (aset name_eqb (orig t) c (p_targets p0)))).
      { destruct (O P) as (_ & _ & _ & ->). destruct (path_eqb_spec P P); [|congruence].
        rewrite Z.eqb_refl. reflexivity. }
      change (eff_targets stack (entry n l) ((t, c) :: ts) cur)
        with (eff_targets stack (entry n l) ts cur1) in cur'.
      destruct (IH cur1 _ T1 E1 q) as ((b & B1) & B2 & B3 & B4).
      destruct (O q) as (O1 & O2 & O3 & O4).
      change (eff_targets stack (entry n l) ts cur1) with cur' in B1, B2, B3, B4. fold P in B1.
      split; [exists true; rewrite B1, O1; destruct (has_node cur q), b, (is_prefix q P); reflexivity|].
      split; [congruence|]. split; [congruence|].
      intros l'. rewrite B4. fold P. destruct (path_eqb q P && (l' =? l)) eqn:Q; [reflexivity|].
      rewrite O4, Q. reflexivity.
  Qed.

  Lemma act_pos_obs n stack l i : loc_ok l -> is_u64 (p_count i) -> forall cur, tot_ok cur ->
    let P := path_of n stack in
    let cur' := eff_targets stack (entry n l) (p_targets i) (act_count stack (entry n l) (p_count i) cur) in
    forall q,
      has_node cur' q = has_node cur q || is_prefix q P /\
      total_at cur' q = (if is_prefix q P then add64 (total_at cur q) (p_count i) else total_at cur q) /\
      head_at cur' q = head_at cur q /\
      forall l', pos_at cur' q l' =
        if path_eqb q P && (l' =? l) then Some (comb i (pos_at cur P l)) else pos_at cur q l'.
  Proof.
    intros L C cur T P cur'.
    set (cur1 := act_count stack (entry n l) (p_count i) cur) in *.
    assert (O : forall q,
        has_node cur1 q = has_node cur q || is_prefix q P /\
        total_at cur1 q = (if is_prefix q P then add64 (total_at cur q) (p_count i) else total_at cur q) /\
        head_at cur1 q = head_at cur q /\
        (forall l', pos_at cur1 q l' = if path_eqb q P && (l' =? l)
           then let p := match pos_at cur P l with Some p => p | None => pinfo0 end in
                Some (PInfo (add64 (p_count p) (p_count i)) (add64 (p_ninst p) 1) (p_targets p))
           else pos_at cur q l')).
    { intros q0.
      pose proof (osn_obs base false (p_count i) (si_offset base (entry n l))
          (fun p => PInfo (add64 (p_count p) (p_count i)) (add64 (p_ninst p) 1) (p_targets p)) true
          (rev (entry n l :: stack)) (rev_ne _ _) cur q0) as (A1 & A2 & A3 & A4).
      change (on_stack_node base false (p_count i) _ (rev (entry n l :: stack)) cur) with cur1 in A1, A2, A3, A4.
      rewrite path_of_leaf in A1, A2, A4. rewrite (L n) in A4. change (si_func (entry n l)) with n in A1, A2, A4.
      fold P in A1, A2, A4.
      split; [exact A1|]. split; [exact A2|]. split; [exact A3|]. intros l'. rewrite A4. reflexivity. }
    assert (T1 : tot_ok cur1).
    { intros q0. destruct (O q0) as (_ & -> & _). destruct (is_prefix q0 P); [apply add64_range|apply T]. }
    intros q. destruct (O q) as (O1 & O2 & O3 & O4).
    assert (E1 := proj2 (proj2 (proj2 (O P))) l). 
    assert (Q : path_eqb P P = true) by (destruct (path_eqb_spec P P); congruence).
    rewrite Q, Z.eqb_refl in E1. cbn [andb] in E1.
    destruct (eff_targets_obs n stack l (p_targets i) L cur1 _ T1 E1 q) as ((b & B1) & B2 & B3 & B4).
    change (eff_targets stack (entry n l) (p_targets i) cur1) with cur' in B1, B2, B3, B4.
    split; [rewrite B1, O1; fold P; destruct (has_node cur q), b, (is_prefix q P); reflexivity|].
    split; [congruence|]. split; [congruence|].
    intros l'. rewrite B4. fold P. destruct (path_eqb q P && (l' =? l)) eqn:X.
    - unfold comb. reflexivity.
    - rewrite O4, X. reflexivity.
  Qed.

  Definition psum (ps : list (Z * pinfo)) : Z := fold_right (fun li a => p_count (snd li) + a) 0 ps.

  Lemma u64_add_l a b : u64 (u64 a + b) = u64 (a + b).
  Proof. unfold u64. apply Zplus_mod_idemp_l. Qed.

  Lemma eff_pos_obs n stack ps :
    NoDup (akeys ps) -> Forall (fun li => loc_ok (fst li) /\ is_u64 (p_count (snd li))) ps ->
    forall cur, tot_ok cur ->
    let P := path_of n stack in
    let cur' := eff_pos n stack ps cur in
    forall q,
      has_node cur' q = has_node cur q || ((match ps with [] => false | _ => true end) && is_prefix q P) /\
      total_at cur' q = (if is_prefix q P then u64 (total_at cur q + psum ps) else total_at cur q) /\
      head_at cur' q = head_at cur q /\
      (forall l, pos_at cur' q l =
        if path_eqb q P then match aget Z.eqb l ps with
                             | Some i => Some (comb i (pos_at cur q l)) | None => pos_at cur q l end
        else pos_at cur q l).
  Proof.
    induction ps as [|[l i] ps IH]; intros N F cur T P cur' q.
    - subst cur'. cbn [AfdoReadProofs.eff_pos fold_left]. cbn [andb psum fold_right aget].
      rewrite orb_false_r, Z.add_0_r.
      split; [reflexivity|]. split; [rewrite u64_id by apply T; destruct (is_prefix q P); reflexivity|].
      split; [reflexivity|]. intros l. destruct (path_eqb q P); reflexivity.
    - inversion N as [|? ? Nl N']; subst. inversion F as [|? ? [Ll Lc] F']; subst. cbn [fst snd] in *.
      set (cur1 := eff_targets stack (entry n l) (p_targets i) (act_count stack (entry n l) (p_count i) cur)).
      change (eff_pos n stack ((l, i) :: ps) cur) with (eff_pos n stack ps cur1) in cur'.
      pose proof (act_pos_obs n stack l i Ll Lc cur T) as O. cbv zeta in O. fold P in O. fold cur1 in O.
      assert (T1 : tot_ok cur1).
      { intros q0. destruct (O q0) as (_ & -> & _). destruct (is_prefix q0 P); [apply add64_range|apply T]. }
      destruct (IH N' F' cur1 T1 q) as (B1 & B2 & B3 & B4).
      change (eff_pos n stack ps cur1) with cur' in B1, B2, B3, B4. fold P in B1, B2, B4.
      destruct (O q) as (O1 & O2 & O3 & O4).
      split; [rewrite B1, O1; destruct (has_node cur q), ps, (is_prefix q P); reflexivity|].
      split.
      { rewrite B2, O2. destruct (is_prefix q P); auto. unfold add64. rewrite u64_add_l.
        f_equal. unfold psum; cbn [fold_right snd]. lia. }
      split; [congruence|].
      intros l'. rewrite B4. destruct (path_eqb_spec q P) as [->|D].
      + cbn [aget]. rewrite O4.
        cbn [andb]. destruct (Z.eqb_spec l' l) as [->|Dl]; [|reflexivity].
        assert (aget Z.eqb l ps = None) as -> by (apply (aget_None_iff Z.eqb Z_eqb_reflect); exact Nl).
        reflexivity.
      + rewrite O4. reflexivity.
  Qed.

  (** profiles in scope *)
  Inductive sym_locs : symbol -> Prop :=
  | sym_locs_intro h tot ts pos calls :
      NoDup (akeys pos) -> Forall (fun li => loc_ok (fst li) /\ is_u64 (p_count (snd li))) pos ->
      NoDup (akeys calls) -> (forall k c, In (k, c) calls -> loc_ok (fst k) /\ sym_locs c) ->
      sym_locs (Sym h tot ts pos calls).

  Definition contrib (P : path) (s : symbol) (q : path) : Z :=
    match sub P q with
    | Some q' => below s q'
    | None => if is_prefix q P then sumc s else 0
    end.
  Definition merged (P : path) (s cur : symbol) (q : path) (l : Z) : option pinfo :=
    match sub P q with
    | Some q' => match pos_at s q' l with
                 | Some i => Some (comb i (pos_at cur q l))
                 | None => pos_at cur q l
                 end
    | None => pos_at cur q l
    end.

  Definition csum (cs : list (callsite * symbol)) : Z := fold_right (fun kc a => sumc (snd kc) + a) 0 cs.
  Definition ccontrib (P : path) (cs : list (callsite * symbol)) (q : path) : Z :=
    match sub P q with
    | Some [] => csum cs
    | Some (k :: q') => match aget callsite_eqb k cs with Some c => below c q' | None => 0 end
    | None => if is_prefix q P then csum cs else 0
    end.

  Lemma eff_sym_obs s : sym_locs s -> forall n stack cur, tot_ok cur ->
    let P := path_of n stack in
    let cur' := eff_sym n stack s cur in
    forall q,
      (has_node cur' q = true <->
         has_node cur q = true \/
         exists q' l, has_pos s q' l = true /\ is_prefix q (P ++ q') = true) /\
      total_at cur' q = u64 (total_at cur q + contrib P s q) /\
      head_at cur' q = head_at cur q /\
      (forall l, pos_at cur' q l = merged P s cur q l).
  Proof.
    induction s as [h tot ts pos calls IH] using symbol_ind'. intros W n stack cur T P cur'.
    inversion W as [? ? ? ? ? Np Fp Nc Hc]; subst.
    pose proof (eff_pos_obs n stack pos Np Fp cur T) as O. cbv zeta in O. fold P in O.
    set (cur1 := eff_pos n stack pos cur) in *.
    assert (T1 : tot_ok cur1).
    { intros q0. destruct (O q0) as (_ & -> & _). destruct (is_prefix q0 P); [apply u64_range|apply T]. }
    (* the loop over the callsites *)
    assert (G : forall cs cur, (forall k c, In (k, c) cs -> In (k, c) calls) -> NoDup (akeys cs) -> tot_ok cur ->
      forall q,
      (has_node (eff_calls n stack cs cur) q = true <->
         has_node cur q = true \/
         exists k c q' l, In (k, c) cs /\ has_pos c q' l = true /\ is_prefix q (P ++ k :: q') = true) /\
      total_at (eff_calls n stack cs cur) q = u64 (total_at cur q + ccontrib P cs q) /\
      head_at (eff_calls n stack cs cur) q = head_at cur q /\
      (forall l, pos_at (eff_calls n stack cs cur) q l =
         match sub P q with
         | Some (k :: q') => match aget callsite_eqb k cs with
                             | Some c => match pos_at c q' l with
                                         | Some i => Some (comb i (pos_at cur q l))
                                         | None => pos_at cur q l
                                         end
                             | None => pos_at cur q l
                             end
         | _ => pos_at cur q l
         end)).
    { clear O cur1 T1 cur' cur T. induction cs as [|[k c] cs IHcs]; intros cur Incl N T q.
      - cbn [AfdoReadProofs.eff_calls fold_left]. split; [|split; [|split]].
        + split; auto. intros [H|(k & c & q' & l & [] & _)]. exact H.
        + unfold ccontrib, csum. cbn [fold_right aget].
          destruct (sub P q) as [[|k q']|]; [| |destruct (is_prefix q P)]; rewrite Z.add_0_r, u64_id by apply T; auto.
        + reflexivity.
        + intros l. destruct (sub P q) as [[|k q']|]; auto.
      - inversion N as [|? ? Nk N']; subst.
        destruct (Hc k c (Incl _ _ (or_introl eq_refl))) as [Lk Wc].
        change (eff_calls n stack ((k, c) :: cs) cur)
          with (eff_calls n stack cs (eff_sym (snd k) (entry n (fst k) :: stack) c cur)).
        set (cur1 := eff_sym (snd k) (entry n (fst k) :: stack) c cur).
        pose proof (IH k c (Incl _ _ (or_introl eq_refl)) Wc (snd k) (entry n (fst k) :: stack) cur T) as O.
        cbv zeta in O. rewrite path_of_nested in O. cbn [si_func entry stack_entry] in O.
        fold (stack_entry n (GenerateCompressedOffset (fst k))) in O. fold (entry n (fst k)) in O.
        rewrite (Lk n) in O. fold P in O. rewrite <- surjective_pairing in O. fold cur1 in O.
        assert (T1 : tot_ok cur1).
        { intros q0. destruct (O q0) as (_ & -> & _). apply u64_range. }
        destruct (IHcs cur1 (fun k c I => Incl k c (or_intror I)) N' T1 q) as (B1 & B2 & B3 & B4).
        destruct (O q) as (O1 & O2 & O3 & O4).
        assert (NoK : aget callsite_eqb k cs = None)
          by (apply (aget_None_iff callsite_eqb callsite_eqb_spec); exact Nk).
        split; [|split; [|split]].
        + rewrite B1, O1. split.
          * intros [[H|(q' & l & H1 & H2)]|(k' & c' & q' & l & I & H1 & H2)]; auto.
            -- right. exists k, c, q', l. rewrite <- app_assoc in H2. cbn in *. auto.
            -- right. exists k', c', q', l. cbn; auto.
          * intros [H|(k' & c' & q' & l & [E|I] & H1 & H2)]; auto.
            -- inversion E; subst. left. right. exists q', l. rewrite <- app_assoc. auto.
            -- right. exists k', c', q', l. auto.
        + rewrite B2, O2, u64_add_l. f_equal. rewrite <- Z.add_assoc. f_equal.
          unfold contrib, ccontrib. rewrite sub_snoc, is_prefix_snoc.
          destruct (sub P q) as [[|k' q']|] eqn:Sq; cbn [aget csum fold_right snd].
          * reflexivity.
          * destruct (callsite_eqb_spec k k') as [<-|D].
            -- rewrite NoK. destruct (callsite_eqb_spec k k); [|congruence]. lia.
            -- destruct (callsite_eqb_spec k' k); [congruence|]. destruct q'; lia.
          * destruct (is_prefix q P); reflexivity.
        + congruence.
        + intros l. rewrite B4, O4. unfold merged. rewrite sub_snoc.
          destruct (sub P q) as [[|k' q']|] eqn:Sq; auto. cbn [aget].
          destruct (callsite_eqb_spec k k') as [<-|D].
          * rewrite NoK. destruct (callsite_eqb_spec k k); [|congruence].
            reflexivity.
          * destruct (callsite_eqb_spec k' k); [congruence|]. reflexivity. }
    intros q. subst cur'. rewrite eff_sym_eq. cbn [s_pos s_calls]. fold cur1.
    destruct (G calls cur1 (fun k c I => I) Nc T1 q) as (B1 & B2 & B3 & B4).
    destruct (O q) as (O1 & O2 & O3 & O4).
    split; [|split; [|split]].
    - rewrite B1, O1. rewrite orb_true_iff, andb_true_iff. split.
      + intros [[H|[H1 H2]]|(k & c & q' & l & I & H1 & H2)]; auto.
        * right. destruct pos as [|[l i] pos']; [discriminate|]. exists [], l. rewrite app_nil_r. split; auto.
          unfold has_pos, pos_at. cbn [node_at s_pos aget]. rewrite Z.eqb_refl. reflexivity.
        * right. exists (k :: q'), l. split; auto. unfold has_pos, pos_at in *. cbn [node_at s_calls].
          rewrite (aget_NoDup_In callsite_eqb callsite_eqb_spec k c calls Nc I). exact H1.
      + intros [H|(q' & l & H1 & H2)]; auto. destruct q' as [|k q'].
        * left. right. rewrite app_nil_r in H2. split; auto.
          unfold has_pos, pos_at in H1. cbn [node_at s_pos] in H1. destruct pos; [discriminate|reflexivity].
        * right. unfold has_pos, pos_at in H1. cbn [node_at s_calls] in H1.
          destruct (aget callsite_eqb k calls) as [c|] eqn:E; [|discriminate].
          exists k, c, q', l. split; [apply (aget_In callsite_eqb callsite_eqb_spec); exact E|]. auto.
    - rewrite B2, O2. unfold contrib, ccontrib.
      assert (SC : sumc (Sym h tot ts pos calls) = psum pos + csum calls) by reflexivity.
      destruct (sub P q) as [[|k q']|] eqn:Sq.
      + apply sub_Some in Sq. rewrite app_nil_r in Sq. subst q. rewrite is_prefix_refl.
        rewrite u64_add_l. unfold below. cbn [node_at]. rewrite SC. f_equal. lia.
      + assert (is_prefix q P = false) as ->.
        { destruct (is_prefix q P) eqn:E; auto. apply is_prefix_sub in E. destruct E; congruence. }
        unfold below. cbn [node_at s_calls]. destruct (aget callsite_eqb k calls); reflexivity.
      + destruct (is_prefix q P); [|reflexivity]. rewrite u64_add_l, SC. f_equal. lia.
    - congruence.
    - intros l. rewrite B4, O4, path_eqb_sub. unfold merged.
      destruct (sub P q) as [[|k q']|] eqn:Sq; [| |reflexivity].
      + unfold pos_at at 4. cbn [node_at s_pos]. reflexivity.
      + unfold pos_at at 5. cbn [node_at s_calls].
        destruct (aget callsite_eqb k calls) as [c|]; [|reflexivity]. reflexivity.
  Qed.
End Eff.
