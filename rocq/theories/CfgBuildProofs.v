(** Lemmas on the CFG builder. *)
From Verif Require Import Base StdSearch CfgFreqModel SymbolModel MapperModel MapperSpec MapperProofs MapperProps CfgBuildModel CfgBuildSpec.
From Coq Require Import Permutation.

Lemma to_int_id x : -2147483648 <= x < 2147483648 -> to_int x = x.
Proof.
  intros H. unfold to_int, u32, w32. destruct (Z_lt_le_dec x 0) as [Hn|Hp].
  - assert (Em : x mod 4294967296 = x + 4294967296).
    { rewrite <- (Z.mod_add x 1) by lia. rewrite Z.mod_small; lia. }
    rewrite Em. destruct (x + 4294967296 <? 2147483648) eqn:E; lia.
  - rewrite Z.mod_small by lia. destruct (x <? 2147483648) eqn:E; lia.
Qed.

Lemma handle_eqb_spec a b : reflect (a = b) (handle_eqb a b).
Proof.
  unfold handle_eqb. destruct a as [a1 a2], b as [b1 b2]. cbn.
  destruct (Nat.eqb_spec a1 b1), (Nat.eqb_spec a2 b2); cbn; constructor; congruence.
Qed.
Lemma ekey_eqb_spec a b : reflect (a = b) (ekey_eqb a b).
Proof.
  unfold ekey_eqb. destruct a as [a1 a2], b as [b1 b2]. cbn [fst snd].
  destruct (handle_eqb_spec a1 b1), (handle_eqb_spec a2 b2); cbn [andb]; constructor; congruence.
Qed.
Lemma pair_eqb_spec a b : reflect (a = b) (pair_eqb a b).
Proof.
  unfold pair_eqb. destruct a as [a1 a2], b as [b1 b2]. cbn [fst snd].
  destruct (Nat.eqb_spec a1 b1), (Nat.eqb_spec a2 b2); cbn [andb]; constructor; congruence.
Qed.
Lemma kind_eqb_spec a b : reflect (a = b) (kind_eqb a b).
Proof. destruct a, b; cbn; constructor; congruence. Qed.

(** ** Sums over association lists *)
Section Sums.
  Context {K V : Type} (eqb : K -> K -> bool) (g : K -> V -> Z).
  Hypothesis eqb_spec : forall a b, reflect (a = b) (eqb a b).
  Definition asum (m : list (K * V)) : Z := fold_right (fun e s => g (fst e) (snd e) + s) 0 m.
  Lemma asum_aset k v m :
    asum (aset eqb k v m) = asum m - match aget eqb k m with Some u => g k u | None => 0 end + g k v.
  Proof.
    induction m as [|[k' u] m IH]; cbn [aset aget asum fold_right fst snd]; [lia|].
    destruct (eqb_spec k k') as [->|Hne]; cbn [asum fold_right fst snd]; [lia|].
    fold (asum m). fold (asum (aset eqb k v m)). rewrite IH. lia.
  Qed.
  Lemma asum_perm m m' : Permutation m m' -> asum m = asum m'.
  Proof. unfold asum. induction 1; cbn [fold_right] in *; lia. Qed.
End Sums.

Lemma ktotal_asum m : ktotal m = asum (fun _ x => x) m.
Proof.
  unfold ktotal. assert (G : forall s, fold_left (fun s e => s + snd e) m s = s + asum (fun (_ : edge_kind) x => x) m).
  { induction m as [|e m IH]; intros s; cbn [fold_left asum fold_right]; [lia|]. rewrite IH. unfold asum. lia. }
  rewrite G. lia.
Qed.
Lemma ktotal_kadd k x m : ktotal (kadd k x m) = ktotal m + x.
Proof.
  rewrite !ktotal_asum. unfold kadd. rewrite (asum_aset kind_eqb _ kind_eqb_spec).
  destruct (aget kind_eqb k m); lia.
Qed.
Lemma total_weight_asum st : total_weight st = asum (fun _ (x : Z * edge_kind) => fst x) (cs_edges st).
Proof. reflexivity. Qed.

(** ** One edge *)
Definition SI (st : cstate) : Prop :=
  NoDup (akeys (cs_edges st)) /\
  ktotal (cs_weight st) = total_weight st /\
  ktotal (cs_created st) = zlen (cs_edges st).

Lemma aset_len_new {V} k (v : V) m : aget ekey_eqb k m = None -> zlen (aset ekey_eqb k v m) = 1 + zlen m.
Proof.
  induction m as [|[k' u] m IH]; cbn [aget aset]; [reflexivity|].
  destruct (ekey_eqb k k'); [discriminate|]. intros H. rewrite !zlen_cons, IH by exact H. lia.
Qed.
Lemma aset_len_old {V} k (v u : V) m : aget ekey_eqb k m = Some u -> zlen (aset ekey_eqb k v m) = zlen m.
Proof.
  induction m as [|[k' u'] m IH]; cbn [aget aset]; [discriminate|].
  destruct (ekey_eqb k k'); [intros _; rewrite !zlen_cons; reflexivity|]. intros H. rewrite !zlen_cons, IH by exact H. lia.
Qed.

Definition kind_of (st : cstate) (k : ekey) : option edge_kind := option_map snd (aget ekey_eqb k (cs_edges st)).

Lemma ICE_ok dbg pre has mp from to w kd st b st' :
  has (blk_handle mp from) = true -> has (blk_handle mp to) = true ->
  InternalCreateEdge dbg pre has mp from to w kd st = Ok (b, st') ->
  let k := (blk_handle mp from, blk_handle mp to) in
  b = true /\ (SI st -> SI st') /\
  (forall k', edge_weight st' k' = edge_weight st k' + (if ekey_eqb k' k then w else 0)) /\
  (forall k', kind_of st' k' = if ekey_eqb k' k then match kind_of st k with Some x => Some x | None => Some kd end
                               else kind_of st k').
Proof.
  intros Ha Hb. unfold InternalCreateEdge. fold (blk_handle mp from) (blk_handle mp to).
  set (k := (blk_handle mp from, blk_handle mp to)). cbv zeta. rewrite Ha, Hb. cbn [andb].
  destruct (aget ekey_eqb k (cs_edges st)) as [[w0 kd0]|] eqn:E.
  - unfold int_add. destruct ((-2147483648 <=? w0 + w) && (w0 + w <=? 2147483647)); cbn [obind]; [|discriminate].
    intros H; injection H as <- <-. split; [reflexivity|]. split; [|split].
    + intros [N [W C]]. unfold SI. cbn [cs_edges cs_weight cs_created]. split; [|split].
      * apply NoDup_akeys_aset; [apply ekey_eqb_spec|exact N].
      * rewrite ktotal_kadd, W, !total_weight_asum. cbn [cs_edges].
        rewrite (asum_aset ekey_eqb _ ekey_eqb_spec), E. cbn [fst]. lia.
      * rewrite (aset_len_old _ _ _ _ E). exact C.
    + intros k'. unfold edge_weight. cbn [cs_edges]. rewrite (aget_aset ekey_eqb ekey_eqb_spec).
      destruct (ekey_eqb_spec k' k) as [->|]; [rewrite E; lia|]. destruct (aget ekey_eqb k' (cs_edges st)) as [[? ?]|]; lia.
    + intros k'. unfold kind_of. cbn [cs_edges]. rewrite (aget_aset ekey_eqb ekey_eqb_spec).
      destruct (ekey_eqb_spec k' k) as [->|]; [rewrite E; reflexivity|reflexivity].
  - destruct (create_check dbg pre st k); [|discriminate].
    intros H; injection H as <- <-. split; [reflexivity|]. split; [|split].
    + intros [N [W C]]. unfold SI. cbn [cs_edges cs_weight cs_created]. split; [|split].
      * apply NoDup_akeys_aset; [apply ekey_eqb_spec|exact N].
      * rewrite ktotal_kadd, W, !total_weight_asum. cbn [cs_edges].
        rewrite (asum_aset ekey_eqb _ ekey_eqb_spec), E. cbn [fst]. lia.
      * rewrite ktotal_kadd, (aset_len_new _ _ _ E), C. lia.
    + intros k'. unfold edge_weight. cbn [cs_edges]. rewrite (aget_aset ekey_eqb ekey_eqb_spec).
      destruct (ekey_eqb_spec k' k) as [->|]; [rewrite E; lia|]. destruct (aget ekey_eqb k' (cs_edges st)) as [[? ?]|]; lia.
    + intros k'. unfold kind_of. cbn [cs_edges]. rewrite (aget_aset ekey_eqb ekey_eqb_spec).
      destruct (ekey_eqb_spec k' k) as [->|]; [rewrite E; reflexivity|reflexivity].
Qed.

Lemma block_of_dbg dbg mp a dir r : FindBb dbg mp a dir = Ok r -> block_of mp a dir = r.
Proof.
  unfold block_of, FindBb. destruct (upper_bound _ _) as [|it]; [intros E; injection E as <-; reflexivity|].
  destruct (_ <? a); [destruct (_ <=? a); intros E; injection E as <-; reflexivity|].
  destruct dir; [|intros E; injection E as <-; reflexivity].
  destruct dbg; cbn [andb]; [destruct (_ =? 0); [discriminate|]|]; intros E; injection E as <-; reflexivity.
Qed.

Section Mapped.
  Context (dbg : bool) (pre : list ekey) (has : bb_handle -> bool) (mp : mapper).
  Hypothesis L : layout_ok mp.
  Hypothesis ND : NoDup (mp_handles mp).
  Hypothesis Hhas : forall h, In h (mp_handles mp) -> has h = true.

  Definition EW (st : cstate) (x y : nat) : Z := edge_weight st (blk_handle mp x, blk_handle mp y).
  Definition EK (st : cstate) (x y : nat) : option edge_kind := kind_of st (blk_handle mp x, blk_handle mp y).

  Lemma block_of_range a dir i : block_of mp a dir = Some i -> (i < blk_count mp)%nat.
  Proof.
    unfold block_of. destruct (FindBb false mp a dir) as [r| |] eqn:E; intros H; [subst|discriminate|discriminate].
    apply (C34_found false mp a dir i L E).
  Qed.
  Lemma has_blk i : (i < blk_count mp)%nat -> has (blk_handle mp i) = true.
  Proof. intros H. apply Hhas. apply nth_In. exact H. Qed.
  Lemma key_inj x y i j : (x < blk_count mp)%nat -> (y < blk_count mp)%nat -> (i < blk_count mp)%nat -> (j < blk_count mp)%nat ->
    ekey_eqb (blk_handle mp x, blk_handle mp y) (blk_handle mp i, blk_handle mp j) = (i =? x)%nat && (j =? y)%nat.
  Proof.
    intros Hx Hy Hi Hj.
    assert (G : forall p q, (p < blk_count mp)%nat -> (q < blk_count mp)%nat -> blk_handle mp p = blk_handle mp q -> p = q).
    { intros p q Hp Hq E. apply (proj1 (NoDup_nth (mp_handles mp) no_handle) ND p q Hp Hq E). }
    destruct (ekey_eqb_spec (blk_handle mp x, blk_handle mp y) (blk_handle mp i, blk_handle mp j)) as [E|E].
    - injection E as E1 E2. rewrite (G x i), (G y j) by assumption. rewrite !Nat.eqb_refl. reflexivity.
    - destruct (Nat.eqb_spec i x) as [->|]; [|reflexivity]. destruct (Nat.eqb_spec j y) as [->|]; [|reflexivity]. congruence.
  Qed.

  (** The model's test is the specification's. *)
  Lemma branch_step_ok c st ft dub st' ft' dub' :
    branch_step dbg pre has mp c (st, ft, dub) = Ok (st', ft', dub') ->
    (SI st -> SI st') /\
    ft' = match implied_path mp c with Some p => ft_add p (snd c) ft | None => ft end /\
    (forall x y, (x < blk_count mp)%nat -> (y < blk_count mp)%nat ->
       EW st' x y = EW st x y + (if is_pair x y (branch_ends mp c) then to_int (snd c) else 0)) /\
    (forall x y, (x < blk_count mp)%nat -> (y < blk_count mp)%nat ->
       EK st' x y = match EK st x y with
                    | Some k => Some k
                    | None => if is_pair x y (branch_ends mp c) then branch_kind mp c else None
                    end).
  Proof.
    destruct c as [[bf bt] w]. unfold branch_step.
    destruct (FindBb dbg mp bf DFrom) as [from| |] eqn:Ef; cbn [obind]; try discriminate.
    destruct (FindBb dbg mp bt DTo) as [to| |] eqn:Et; cbn [obind]; try discriminate.
    apply block_of_dbg in Ef. apply block_of_dbg in Et.
    unfold branch_kind, branch_ends, implied_path. cbn [snd]. rewrite Ef, Et.
    destruct to as [j|].
    2: { intros E; injection E as <- <- <-. split; [auto|]. split; [reflexivity|].
         split; intros x y Hx Hy; destruct from; cbn [is_pair]; try lia; destruct (EK st x y); reflexivity. }
    pose proof (block_of_range _ _ _ Et) as Hj.
    fold (blk_handle mp j).
    set (adjust := (_ && _ && _ && _)).
    assert (EA : adjust = returns_behind_call mp bf bt j).
    { unfold adjust, returns_behind_call. rewrite Ef. fold (blk_handle mp j).
      unfold blk_handle at 3. rewrite (GetAddress_start mp j L Hj).
      replace (fm_addr (GetFunctionEntry (mp_funcs mp) (blk_handle mp j))) with (func_start mp j) by reflexivity.
      rewrite (Z.eqb_sym (func_start mp j) bt). 
      destruct from as [i|]; cbn [andb].
      - change (GetBBEntry (mp_funcs mp) (nth i (mp_handles mp) no_handle)) with (blk_entry mp i).
        change (bh_func (blk_handle mp j)) with (blk_func mp j).
        change (bh_func (nth i (mp_handles mp) no_handle)) with (blk_func mp i).
        destruct (be_return (blk_entry mp i) || negb (blk_func mp j =? blk_func mp i)%nat),
          (bt =? func_start mp j), (bt =? blk_start mp j), (bh_bb (blk_handle mp j) =? 0)%nat; reflexivity.
      - destruct (bt =? func_start mp j), (bt =? blk_start mp j), (bh_bb (blk_handle mp j) =? 0)%nat; reflexivity. }
    rewrite EA. set (j' := if returns_behind_call mp bf bt j then (j - 1)%nat else j).
    assert (Hj' : (j' < blk_count mp)%nat) by (unfold j'; destruct (returns_behind_call mp bf bt j); lia).
    destruct from as [i|].
    - pose proof (block_of_range _ _ _ Ef) as Hi.
      fold (blk_handle mp j').
      set (kd := if fm_addr _ =? bt then KCall else _).
      assert (EKd : kd = (if bt =? func_start mp j' then KCall
            else if negb (bt =? blk_start mp j') || be_return (blk_entry mp i) then KRet
            else KBranchOrFallthrough)).
      { unfold kd. unfold blk_handle at 2. rewrite (GetAddress_start mp j' L Hj').
        change (fm_addr (GetFunctionEntry (mp_funcs mp) (blk_handle mp j'))) with (func_start mp j').
        rewrite (Z.eqb_sym (func_start mp j') bt). reflexivity. }
      rewrite <- EKd. clearbody kd.
      destruct (InternalCreateEdge dbg pre has mp i j' (to_int w) kd st) as [[b st1]| |] eqn:EI; cbn [obind]; try discriminate.
      intros E; injection E as <- <- _.
      destruct (ICE_ok _ _ _ _ _ _ _ _ _ _ _ (has_blk i Hi) (has_blk j' Hj') EI) as [_ [G1 [G2 G3]]].
      split; [exact G1|]. split; [destruct (returns_behind_call mp bf bt j); reflexivity|].
      split; intros x y Hx Hy.
      + unfold EW. rewrite G2, key_inj by assumption. reflexivity.
      + unfold EK. rewrite G3, key_inj by assumption. cbn [is_pair]. fold j'.
        destruct (Nat.eqb_spec i x) as [->|]; cbn [andb]; [|destruct (kind_of st (blk_handle mp x, blk_handle mp y)); reflexivity].
        destruct (Nat.eqb_spec j' y) as [Ey|]; [|destruct (kind_of st (blk_handle mp x, blk_handle mp y)); reflexivity]. rewrite Ey. reflexivity.
    - intros E; injection E as <- <- _. split; [auto|].
      split; [destruct (returns_behind_call mp bf bt j); reflexivity|].
      split; intros x y Hx Hy; cbn [is_pair]; [lia|]. destruct (EK st x y); reflexivity.
  Qed.

  (** ** The fall-through counters *)
  Definition fsum (g : nat * nat -> Z) (ft : list ((nat * nat) * Z)) : Z := asum (fun p w => w * g p) ft.
  Definition ft_ok (T : Z) (ft : list ((nat * nat) * Z)) : Prop :=
    (forall p w, In (p, w) ft -> 0 <= w) /\ fsum (fun _ => 1) ft <= T.

  Lemma fsum_ge p w ft : (forall q v, In (q, v) ft -> 0 <= v) -> aget pair_eqb p ft = Some w -> w <= fsum (fun _ => 1) ft /\ 0 <= w.
  Proof.
    intros Hp. unfold fsum. induction ft as [|[q v] ft IH]; cbn [aget]; [discriminate|].
    cbn [asum fold_right fst snd]. fold (asum (fun (_ : nat * nat) w => w * 1) ft).
    assert (Hpos : 0 <= asum (fun (_ : nat * nat) w => w * 1) ft).
    { assert (Hp' : forall q v, In (q, v) ft -> 0 <= v) by (intros; eapply Hp; right; eauto). clear - Hp'.
      induction ft as [|[q v] ft IH]; cbn [asum fold_right fst snd]; [lia|].
      pose proof (Hp' q v (or_introl eq_refl)). unfold asum in IH. assert (forall q v, In (q, v) ft -> 0 <= v) by (intros; eapply Hp'; right; eauto).
      specialize (IH H0). lia. }
    pose proof (Hp q v (or_introl eq_refl)).
    destruct (pair_eqb p q).
    - intros E; injection E as <-. lia.
    - intros E. specialize (IH ltac:(intros; eapply Hp; right; eauto) E). lia.
  Qed.

  Lemma ft_add_ok T p w ft : ft_ok T ft -> 0 <= w -> T + w < 2147483648 ->
    ft_ok (T + w) (ft_add p w ft) /\ forall g, fsum g (ft_add p w ft) = fsum g ft + w * g p.
  Proof.
    intros [F1 F2] Hw HT. unfold ft_add. set (old := match aget pair_eqb p ft with Some v => v | None => 0 end).
    assert (Ho : 0 <= old <= T).
    { unfold old. destruct (aget pair_eqb p ft) as [v|] eqn:E.
      - destruct (fsum_ge p v ft F1 E). lia.
      - assert (0 <= fsum (fun _ => 1) ft); [|lia]. clear - F1. unfold fsum.
        induction ft as [|[q v] ft IH]; cbn [asum fold_right fst snd]; [lia|].
        pose proof (F1 q v (or_introl eq_refl)). unfold asum in IH.
        assert (forall q v, In (q, v) ft -> 0 <= v) by (intros; eapply F1; right; eauto). specialize (IH H0). lia. }
    rewrite to_int_id by lia.
    assert (G : forall g, fsum g (aset pair_eqb p (old + w) ft) = fsum g ft + w * g p).
    { intros g. unfold fsum. rewrite (asum_aset pair_eqb _ pair_eqb_spec). unfold old.
      destruct (aget pair_eqb p ft); lia. }
    split; [|exact G]. split.
    - intros q v Hq. apply (AssocFold.In_aset pair_eqb pair_eqb_spec) in Hq as [Hq| ->]; [eauto|lia].
    - rewrite G. lia.
  Qed.

  Lemma branch_loop_ok : forall cs st ft dub st' ft' dub' T,
    branch_loop dbg pre has mp cs (st, ft, dub) = Ok (st', ft', dub') ->
    (forall c, In c cs -> 0 <= snd c) ->
    ft_ok T ft -> T + sum_if (fun _ => true) cs < 2147483648 -> 0 <= T ->
    (SI st -> SI st') /\
    ft_ok (T + sum_if (fun _ => true) cs) ft' /\
    (forall g, fsum g ft' = fsum g ft +
       fold_right (fun c s => (match implied_path mp c with Some p => snd c * g p | None => 0 end) + s) 0 cs) /\
    (forall x y, (x < blk_count mp)%nat -> (y < blk_count mp)%nat ->
       EW st' x y = EW st x y + sum_if (fun c => is_pair x y (branch_ends mp c)) cs) /\
    (forall x y, (x < blk_count mp)%nat -> (y < blk_count mp)%nat ->
       match EK st x y with
       | Some k => EK st' x y = Some k
       | None => EK st' x y = None /\ (forall c, In c cs -> is_pair x y (branch_ends mp c) = false) \/
                 exists c, In c cs /\ is_pair x y (branch_ends mp c) = true /\ EK st' x y = branch_kind mp c
       end).
  Proof.
    induction cs as [|c cs IH]; intros st ft dub st' ft' dub' T; cbn [branch_loop sum_if fold_right].
    - intros E; injection E as <- <- <-. intros _ F _ _.
      split; [auto|]. split; [rewrite Z.add_0_r; exact F|]. split; [intros; lia|]. split; [intros; lia|].
      intros x y _ _. destruct (EK st x y); [reflexivity|]. left. split; [reflexivity|]. intros c [].
    - destruct (branch_step dbg pre has mp c (st, ft, dub)) as [[[st1 ft1] dub1]| |] eqn:E1; cbn [obind]; try discriminate.
      intros E Hc F HT HT0. destruct (branch_step_ok _ _ _ _ _ _ _ E1) as [A1 [A2 [A3 A4]]].
      assert (Hw : 0 <= snd c) by (apply Hc; left; reflexivity).
      assert (Hs : 0 <= sum_if (fun _ => true) cs).
      { clear - Hc. induction cs as [|d cs IH]; cbn [sum_if]; [lia|]. 
        assert (0 <= snd d) by (apply Hc; right; left; reflexivity).
        assert (0 <= sum_if (fun _ => true) cs); [|lia]. apply IH. intros e [<-|He]; apply Hc; cbn [In]; auto. }
      assert (F1 : ft_ok (T + snd c) ft1 /\ forall g, fsum g ft1 = fsum g ft +
                (match implied_path mp c with Some p => snd c * g p | None => 0 end)).
      { subst ft1. destruct (implied_path mp c) as [p|].
        - apply ft_add_ok; [exact F|lia|lia].
        - split; [|intros; lia]. destruct F as [Fa Fb]. split; [exact Fa|]. lia. }
      destruct F1 as [F1 F2].
      destruct (IH st1 ft1 dub1 st' ft' dub' (T + snd c) E ltac:(intros d Hd; apply Hc; right; exact Hd) F1 ltac:(lia) ltac:(lia))
        as [B1 [B2 [B3 [B4 B5]]]].
      split; [auto|]. split; [replace (T + (snd c + sum_if (fun _ => true) cs)) with (T + snd c + sum_if (fun _ => true) cs) by lia; exact B2|].
      split; [intros g; rewrite B3, F2; lia|]. split.
      + intros x y Hx Hy. rewrite B4, A3 by assumption. rewrite to_int_id by lia. lia.
      + intros x y Hx Hy. specialize (A4 x y Hx Hy). specialize (B5 x y Hx Hy).
        destruct (EK st x y) as [k|] eqn:Ek.
        * rewrite A4 in B5. exact B5.
        * destruct (is_pair x y (branch_ends mp c)) eqn:Ep.
          -- right. exists c. split; [left; reflexivity|]. split; [exact Ep|].
             assert (branch_kind mp c <> None).
             { unfold branch_kind, is_pair in *. destruct c as [[? ?] ?]. destruct (branch_ends mp _) as [[? ?]|]; discriminate. }
             rewrite A4 in B5. destruct (branch_kind mp c); [exact B5|congruence].
          -- rewrite A4 in B5. destruct B5 as [[B5 B6]|[d [Hd [Hp Hk]]]].
             ++ left. split; [exact B5|]. intros d [<-|Hd]; auto.
             ++ right. exists d. split; [right; exact Hd|]. auto.
  Qed.

  Lemma ft_map_ok : forall cs ft ft' T,
    ft_map_loop dbg mp cs ft = Ok ft' ->
    (forall c, In c cs -> 0 <= snd c) ->
    ft_ok T ft -> T + sum_if (fun _ => true) cs < 2147483648 -> 0 <= T ->
    ft_ok (T + sum_if (fun _ => true) cs) ft' /\
    (forall g, fsum g ft' = fsum g ft +
       fold_right (fun c s => (match sampled_path mp c with Some p => snd c * g p | None => 0 end) + s) 0 cs).
  Proof.
    induction cs as [|c cs IH]; intros ft ft' T; cbn [ft_map_loop sum_if fold_right].
    - intros E; injection E as <-. intros _ F _ _. split; [rewrite Z.add_0_r; exact F|]. intros; lia.
    - destruct (ft_step dbg mp c ft) as [ft1| |] eqn:E1; cbn [obind]; try discriminate.
      intros E Hc F HT HT0. assert (Hw : 0 <= snd c) by (apply Hc; left; reflexivity).
      assert (Hs : 0 <= sum_if (fun _ => true) cs).
      { clear - Hc. induction cs as [|d cs IH]; cbn [sum_if]; [lia|]. 
        assert (0 <= snd d) by (apply Hc; right; left; reflexivity).
        assert (0 <= sum_if (fun _ => true) cs); [|lia]. apply IH. intros e [<-|He]; apply Hc; cbn [In]; auto. }
      assert (E2 : ft1 = match sampled_path mp c with Some p => ft_add p (snd c) ft | None => ft end).
      { destruct c as [[a b] w]. unfold ft_step in E1. unfold sampled_path.
        destruct (FindBb dbg mp a DTo) as [i| |] eqn:Ea; cbn [obind] in E1; try discriminate.
        destruct (FindBb dbg mp b DFrom) as [j| |] eqn:Eb; cbn [obind] in E1; try discriminate.
        rewrite (block_of_dbg _ _ _ _ _ Ea), (block_of_dbg _ _ _ _ _ Eb).
        destruct i; [destruct j|]; injection E1 as <-; reflexivity. }
      assert (F1 : ft_ok (T + snd c) ft1 /\ forall g, fsum g ft1 = fsum g ft +
                (match sampled_path mp c with Some p => snd c * g p | None => 0 end)).
      { subst ft1. destruct (sampled_path mp c) as [p|].
        - apply ft_add_ok; [exact F|lia|lia].
        - split; [|intros; lia]. destruct F as [Fa Fb]. split; [exact Fa|]. lia. }
      destruct F1 as [F1 F2].
      destruct (IH ft1 ft' (T + snd c) E ltac:(intros d Hd; apply Hc; right; exact Hd) F1 ltac:(lia) ltac:(lia)) as [B1 B2].
      split; [replace (T + (snd c + sum_if (fun _ => true) cs)) with (T + snd c + sum_if (fun _ => true) cs) by lia; exact B1|].
      intros g. rewrite B2, F2. lia.
  Qed.

  (** ** Paths *)
  Lemma path_loop_ok w : forall n sym st st',
    (sym + n < blk_count mp)%nat ->
    path_loop dbg pre has mp w sym n st = Ok st' ->
    (SI st -> SI st') /\
    (forall x y, (x < blk_count mp)%nat -> (y < blk_count mp)%nat ->
      EW st' x y = EW st x y + (if (y =? S x)%nat && (sym <=? x)%nat && (x <? sym + n)%nat then w else 0)) /\
    (forall x y, (x < blk_count mp)%nat -> (y < blk_count mp)%nat ->
      EK st' x y = match EK st x y with
                   | Some k => Some k
                   | None => if (y =? S x)%nat && (sym <=? x)%nat && (x <? sym + n)%nat then Some KBranchOrFallthrough else None
                   end).
  Proof.
    induction n as [|n IH]; intros sym st st' Hr; cbn [path_loop].
    - intros E; injection E as <-. split; [auto|]. split.
      + intros x y _ _. replace ((y =? S x)%nat && (sym <=? x)%nat && (x <? sym + 0)%nat) with false by lia. lia.
      + intros x y _ _. replace ((y =? S x)%nat && (sym <=? x)%nat && (x <? sym + 0)%nat) with false by lia.
        destruct (EK st x y); reflexivity.
    - destruct (InternalCreateEdge dbg pre has mp sym (S sym) w KBranchOrFallthrough st) as [[b st1]| |] eqn:E1; cbn [obind]; try discriminate.
      destruct (ICE_ok _ _ _ _ _ _ _ _ _ _ _ (has_blk sym ltac:(lia)) (has_blk (S sym) ltac:(lia)) E1) as [-> [G1 [G2 G3]]].
      intros E. destruct (IH (S sym) st1 st' ltac:(lia) E) as [A1 [A2 A3]]. split; [auto|]. split.
      + intros x y Hx Hy. rewrite A2 by assumption. unfold EW. rewrite G2, key_inj by (assumption || lia).
        destruct (Nat.eqb_spec y (S x)) as [->|]; cbn [andb].
        * destruct (Nat.eqb_spec sym x) as [->|].
          -- rewrite Nat.eqb_refl. cbn [andb].
             replace ((S x <=? x)%nat && (x <? S x + n)%nat) with false by lia.
             replace ((x <=? x)%nat && (x <? x + S n)%nat) with true by lia. lia.
          -- replace (S sym =? S x)%nat with false by lia. cbn [andb].
             replace ((S sym <=? x)%nat && (x <? S sym + n)%nat) with ((sym <=? x)%nat && (x <? sym + S n)%nat) by lia. lia.
        * replace ((sym =? x)%nat && (S sym =? y)%nat) with false by lia. lia.
      + intros x y Hx Hy. rewrite A3 by assumption. unfold EK. rewrite G3, key_inj by (assumption || lia).
        destruct (Nat.eqb_spec y (S x)) as [->|]; cbn [andb].
        * destruct (Nat.eqb_spec sym x) as [->|].
          -- rewrite Nat.eqb_refl. cbn [andb].
             replace ((x <=? x)%nat && (x <? x + S n)%nat) with true by lia.
             destruct (kind_of st (blk_handle mp x, blk_handle mp (S x))); reflexivity.
          -- replace (S sym =? S x)%nat with false by lia. cbn [andb].
             replace ((S sym <=? x)%nat && (x <? S sym + n)%nat) with ((sym <=? x)%nat && (x <? sym + S n)%nat) by lia. reflexivity.
        * replace ((sym =? x)%nat && (S sym =? y)%nat) with false by lia. reflexivity.
  Qed.

  Definition gpass (a b : nat) (p : nat * nat) : Z :=
    if (b =? S a)%nat && passes mp a (Some p) then 1 else 0.

  Lemma paths_loop_ok : forall l st st',
    (forall f t w, In ((f, t), w) l -> (f < blk_count mp)%nat /\ (t < blk_count mp)%nat) ->
    paths_loop dbg pre has mp l st = Ok st' ->
    (SI st -> SI st') /\
    (forall x y, (x < blk_count mp)%nat -> (y < blk_count mp)%nat ->
      EW st' x y = EW st x y + fsum (gpass x y) l) /\
    (forall x y, (x < blk_count mp)%nat -> (y < blk_count mp)%nat ->
      match EK st x y with
      | Some k => EK st' x y = Some k
      | None => EK st' x y = None /\ (forall p w, In (p, w) l -> gpass x y p = 0) \/
                (exists p w, In (p, w) l /\ gpass x y p = 1) /\ EK st' x y = Some KBranchOrFallthrough
      end).
  Proof.
    induction l as [|[[f t] w] l IH]; intros st st' Hr; cbn [paths_loop].
    - intros E; injection E as <-. split; [auto|]. split; [intros; unfold fsum; cbn; lia|].
      intros x y _ _. destruct (EK st x y); [reflexivity|]. left. split; [reflexivity|]. intros p w [].
    - destruct (Hr f t w (or_introl eq_refl)) as [Hf Ht].
      assert (Hr' : forall f t w, In ((f, t), w) l -> (f < blk_count mp)%nat /\ (t < blk_count mp)%nat)
        by (intros; eapply Hr; right; eauto).
      destruct (path_step dbg pre has mp ((f, t), w) st) as [st1| |] eqn:E1; cbn [obind]; try discriminate.
      assert (G : (SI st -> SI st1) /\
        (forall x y, (x < blk_count mp)%nat -> (y < blk_count mp)%nat -> EW st1 x y = EW st x y + w * gpass x y (f, t)) /\
        (forall x y, (x < blk_count mp)%nat -> (y < blk_count mp)%nat ->
          EK st1 x y = match EK st x y with Some k => Some k
             | None => if gpass x y (f, t) =? 1 then Some KBranchOrFallthrough else None end)).
      { cbn [path_step] in E1. unfold gpass, passes.
        destruct (Nat.eqb_spec f t) as [->|Hft]; cbn [orb] in E1.
        - injection E1 as <-. split; [auto|]. split.
          + intros x y _ _. replace ((t <=? x)%nat && (x <? t)%nat) with false by lia. cbn [andb]. rewrite andb_false_r. lia.
          + intros x y _ _. replace ((t <=? x)%nat && (x <? t)%nat) with false by lia. cbn [andb]. rewrite andb_false_r. cbn.
            destruct (EK st x y); reflexivity.
        - destruct (CanFallThrough mp f t); cbn [negb] in E1.
          + assert (Hfn : (f + (t - f) < blk_count mp)%nat) by lia.
            destruct (path_loop_ok w (t - f) f st st1 Hfn E1) as [P1 [P2 P3]]. split; [exact P1|].
            assert (EB : forall x y, ((y =? S x) && (f <=? x) && (x <? f + (t - f)))%nat = ((y =? S x) && ((f <=? x) && (x <? t) && true))%nat) by (intros; lia).
            split.
            * intros x y Hx Hy. rewrite P2, EB by assumption. destruct ((y =? S x) && ((f <=? x) && (x <? t) && true))%nat; lia.
            * intros x y Hx Hy. rewrite P3, EB by assumption. destruct ((y =? S x) && ((f <=? x) && (x <? t) && true))%nat; reflexivity.
          + injection E1 as <-. split; [auto|]. split.
            * intros x y _ _. rewrite !andb_false_r. lia.
            * intros x y _ _. rewrite !andb_false_r. cbn. destruct (EK st x y); reflexivity. }
      destruct G as [G1 [G2 G3]]. intros E. destruct (IH st1 st' Hr' E) as [A1 [A2 A3]].
      split; [auto|]. split.
      + intros x y Hx Hy. rewrite A2, G2 by assumption. unfold fsum, asum. cbn [fold_right fst snd]. lia.
      + intros x y Hx Hy. specialize (A3 x y Hx Hy). rewrite G3 in A3 by assumption.
        destruct (EK st x y) as [k|]; [exact A3|].
        assert (Gb : gpass x y (f, t) = 0 \/ gpass x y (f, t) = 1) by (unfold gpass; destruct (_ && _); auto).
        destruct Gb as [Gb|Gb]; rewrite Gb in A3; cbn in A3.
        * destruct A3 as [[A3 A4]|[[p [v [Hp Hg]]] A3]].
          -- left. split; [exact A3|]. intros p v [Ev|Hv]; [injection Ev as <- <-; exact Gb|eauto].
          -- right. split; [|exact A3]. exists p, v. split; [right; exact Hp|exact Hg].
        * right. split; [|exact A3]. exists (f, t), w. split; [left; reflexivity|exact Gb].
  Qed.

  Lemma ft_range_branch : forall cs s st' ft' dub',
    (forall f t w, In ((f, t), w) (snd (fst s)) -> (f < blk_count mp)%nat /\ (t < blk_count mp)%nat) ->
    branch_loop dbg pre has mp cs s = Ok (st', ft', dub') ->
    forall f t w, In ((f, t), w) ft' -> (f < blk_count mp)%nat /\ (t < blk_count mp)%nat.
  Proof.
    induction cs as [|c cs IH]; intros [[st ft] dub] st' ft' dub' Hr; cbn [branch_loop].
    - intros E; injection E as <- <- <-. exact Hr.
    - destruct (branch_step dbg pre has mp c (st, ft, dub)) as [[[st1 ft1] dub1]| |] eqn:E1; cbn [obind]; try discriminate.
      intros E. refine (IH (st1, ft1, dub1) st' ft' dub' _ E). cbn [fst snd] in *.
      destruct (branch_step_ok _ _ _ _ _ _ _ E1) as [_ [-> _]].
      destruct (implied_path mp c) as [[i j]|] eqn:Ep; [|exact Hr].
      assert (Hij : (i < blk_count mp)%nat /\ (j < blk_count mp)%nat).
      { unfold implied_path in Ep. destruct c as [[a b] w0].
        destruct (block_of mp b DTo) as [j0|] eqn:Ej; [|discriminate]. apply block_of_range in Ej.
        destruct (returns_behind_call mp a b j0); [|discriminate]. injection Ep as <- <-. lia. }
      intros f t w Hin. unfold ft_add in Hin.
      assert (K : In (f, t) (akeys (aset pair_eqb (i, j) (to_int (match aget pair_eqb (i, j) ft with Some v => v | None => 0 end + snd c)) ft)))
        by (apply (in_map fst) in Hin; exact Hin).
      apply In_akeys_aset in K; [|apply pair_eqb_spec]. destruct K as [K|K].
      + injection K as -> ->. exact Hij.
      + unfold akeys in K. apply in_map_iff in K as [[q v] [Eq Hq]]. cbn in Eq. subst q. eapply Hr; eauto.
  Qed.
  Lemma ft_range_map : forall cs ft ft',
    (forall f t w, In ((f, t), w) ft -> (f < blk_count mp)%nat /\ (t < blk_count mp)%nat) ->
    ft_map_loop dbg mp cs ft = Ok ft' ->
    forall f t w, In ((f, t), w) ft' -> (f < blk_count mp)%nat /\ (t < blk_count mp)%nat.
  Proof.
    induction cs as [|[[a b] c] cs IH]; intros ft ft' Hr; cbn [ft_map_loop].
    - intros E; injection E as <-. exact Hr.
    - unfold ft_step at 1.
      destruct (FindBb dbg mp a DTo) as [i| |] eqn:Ea; cbn [obind]; try discriminate.
      destruct (FindBb dbg mp b DFrom) as [j| |] eqn:Eb; cbn [obind]; try discriminate.
      apply block_of_dbg in Ea. apply block_of_dbg in Eb.
      destruct i as [i|]; [destruct j as [j|]|]; cbn [obind]; intros E; try (eapply IH; eauto; fail).
      apply block_of_range in Ea. apply block_of_range in Eb.
      refine (IH _ ft' _ E). intros f t w Hin. unfold ft_add in Hin.
      apply (in_map fst) in Hin. cbn [fst] in Hin.
      apply (In_akeys_aset pair_eqb pair_eqb_spec) in Hin. destruct Hin as [K|K].
      + injection K as -> ->. auto.
      + unfold akeys in K. apply in_map_iff in K as [[q v] [Eq Hq]]. cbn in Eq. subst q. eapply Hr; eauto.
  Qed.
End Mapped.
