(** C33: the symbol ordering file.  C53: the cluster file can be read back. *)
From Coq Require Import String Ascii DecimalString.
From Verif Require Import Base ChainAsmProofs ChainMainProofs LayoutSpec LayoutProofs ClusterModel ClusterSpec ChainBuildModel ChainBuildSpec LayoutModel LayoutRunProofs LayoutProps WriterModel WriterSpec WriterProofs WriterReadProofs.

(** The symbol ordering file has, section by section, the symbols of the
    clusters in the order of their layout index and then the cold symbols in the
    order of their cold index, each as WriterSpec says; nothing is undefined. *)
Theorem C33_symbol_file verbose v cfgs secs : (forall s, In s secs -> section_wf cfgs (snd s) /\ paths_ok v cfgs (snd s)) ->
  exists cc sss, Forall2 (section_symbols cfgs) (map snd secs) sss /\ Write verbose v cfgs secs = Ok (cc, lines (concat sss)).
Proof.
  intros H. unfold Write. destruct (sections_ok verbose v cfgs secs H (match e_version (GetProfileEncoding v) with V0 => [] | _ => e_spec (GetProfileEncoding v) ++ [nl] end) []) as [sss [F Q]].
  eexists. exists sss. split; [exact F|exact Q].
Qed.
Print Assumptions C33_symbol_file.

(** * No symbol is listed twice *)
Inductive tag := Plain | Part (k : Z) | Cold.
Definition sym (p : text * tag) : text := match snd p with Plain => fst p | Part k => fst p ++ bytes ".__part." ++ decimal k | Cold => fst p ++ bytes ".cold" end.
(** The names are all different and none of them looks like a part of another. *)
Record names_ok (names : list text) : Prop := {
  no_dup : NoDup names;
  no_part : forall n m k, In n names -> In m names -> n <> m ++ bytes ".__part." ++ decimal k;
  no_cold : forall n m, In n names -> In m names -> n <> m ++ bytes ".cold" }.
Lemma NoDup_flat_map_intro {A B} (f : A -> list B) l : NoDup l -> (forall x, In x l -> NoDup (f x)) ->
  (forall x y b, In x l -> In y l -> In b (f x) -> In b (f y) -> x = y) -> NoDup (flat_map f l).
Proof.
  induction l as [|x l IH]; intros N H D; [constructor|]. cbn [flat_map]. inversion N as [|? ? N1 N2]; subst. apply NoDup_app_intro.
  - apply H. left. reflexivity.
  - apply IH; [exact N2|intros; apply H; right; assumption|intros a b c Ha Hb; apply D; right; assumption].
  - intros b Hb X. apply in_flat_map in X as [y [Hy X]]. assert (x = y) by (apply (D x y b); auto; [left; reflexivity|right; exact Hy]). subst y. exact (N1 Hy).
Qed.
Lemma flat_map_same {A B} (f : A -> list B) l a b x : NoDup (flat_map f l) -> In a l -> In b l -> In x (f a) -> In x (f b) -> a = b.
Proof.
  induction l as [|c l IH]; intros N Ha Hb Xa Xb; [destruct Ha|]. cbn [flat_map] in N. apply NoDup_app_inv in N as [N1 [N2 D]].
  assert (IN : forall d, In d l -> In x (f d) -> In x (flat_map f l)) by (intros d Hd Hx; apply in_flat_map; eauto).
  destruct Ha as [<-|Ha], Hb as [<-|Hb]; [reflexivity| | |apply IH; assumption]; exfalso.
  - exact (D x Xa (IN b Hb Xb)).
  - exact (D x Xb (IN a Ha Xa)).
Qed.
Lemma numbered_same {A B} (f : A -> list B) l : forall i j k a b x, NoDup (flat_map f l) -> In (j, a) (numbered i l) -> In (k, b) (numbered i l) -> In x (f a) -> In x (f b) -> j = k /\ a = b.
Proof.
  induction l as [|c l IH]; intros i j k a b x N Ha Hb Xa Xb; [destruct Ha|]. cbn [flat_map] in N. apply NoDup_app_inv in N as [N1 [N2 D]]. cbn [numbered] in Ha, Hb.
  assert (IN : forall m d, In (m, d) (numbered (i + 1) l) -> In x (f d) -> In x (flat_map f l)) by (intros m d Hd Hx; apply numbered_In in Hd; apply in_flat_map; exists d; tauto).
  destruct Ha as [Ha|Ha], Hb as [Hb|Hb].
  - injection Ha as <- <-. injection Hb as <- <-. auto.
  - injection Ha as <- <-. exfalso. exact (D x Xa (IN k b Hb Xb)).
  - injection Hb as <- <-. exfalso. exact (D x Xb (IN j a Ha Xa)).
  - eapply IH; eassumption.
Qed.
Lemma numbered_key {A} (l : list A) i j a b : In (j, a) (numbered i l) -> In (j, b) (numbered i l) -> a = b.
Proof.
  revert i. induction l as [|c l IH]; intros i Ha Hb; [destruct Ha|]. cbn [numbered] in Ha, Hb. destruct Ha as [Ha|Ha], Hb as [Hb|Hb].
  - injection Ha as _ <-. injection Hb as _ <-. reflexivity.
  - injection Ha as <- _. apply numbered_In in Hb. lia.
  - injection Hb as <- _. apply numbered_In in Ha. lia.
  - eapply IH; eassumption.
Qed.
Lemma decimal_digits k b : In b (decimal k) -> 48 <= b <= 57.
Proof. unfold decimal. rewrite <- digits_string. apply digits_range. Qed.
Lemma decimal_inj k l : 0 <= k -> 0 <= l -> decimal k = decimal l -> k = l.
Proof. intros A B E. pose proof (number_decimal k A) as X. rewrite E, number_decimal in X by exact B. injection X as ->. reflexivity. Qed.
Lemma last_dot a b c d : (forall x, In x b -> x <> 46) -> (forall x, In x d -> x <> 46) -> a ++ 46 :: b = c ++ 46 :: d -> a = c /\ b = d.
Proof.
  intros Hb Hd E. assert (R : rev b ++ 46 :: rev a = rev d ++ 46 :: rev c) by (apply (f_equal (@rev Z)) in E; rewrite !rev_app_distr in E; cbn [rev] in E; rewrite <- !app_assoc in E; exact E).
  assert (Hb' : forall x, In x (rev b) -> x <> 46) by (intros x Hx; apply Hb, in_rev, Hx). assert (Hd' : forall x, In x (rev d) -> x <> 46) by (intros x Hx; apply Hd, in_rev, Hx).
  assert (G : forall p q s t, (forall x, In x p -> x <> 46) -> (forall x, In x q -> x <> 46) -> p ++ 46 :: s = q ++ 46 :: t -> p = q /\ s = t).
  { clear. induction p as [|x p IH]; intros [|y q] s t H1 H2 E; cbn [app] in E.
    - injection E as ->. auto.
    - injection E as <- _. exfalso. apply (H2 46); [left|]; reflexivity.
    - injection E as -> _. exfalso. apply (H1 46); [left|]; reflexivity.
    - injection E as -> E. destruct (IH q s t) as [-> ->]; auto; intros; [apply H1|apply H2]; right; assumption. }
  destruct (G _ _ _ _ Hb' Hd' R) as [E1 E2]. apply (f_equal (@rev Z)) in E1, E2. rewrite !rev_involutive in E1, E2. auto.
Qed.
Lemma part_suffix n k : n ++ bytes ".__part." ++ decimal k = (n ++ bytes ".__part") ++ 46 :: decimal k.
Proof. rewrite <- app_assoc. reflexivity. Qed.
Lemma cold_suffix n : n ++ bytes ".cold" = n ++ 46 :: bytes "cold".
Proof. reflexivity. Qed.
Lemma sym_inj names n t m u : names_ok names -> In n names -> In m names -> (forall k, t = Part k \/ u = Part k -> 0 <= k) -> sym (n, t) = sym (m, u) -> n = m /\ t = u.
Proof.
  intros [ND NP NC] Hn Hm HK E. unfold sym in E. cbn [fst snd] in E.
  assert (DD : forall k x, In x (decimal k) -> x <> 46) by (intros k x Hx; apply decimal_digits in Hx; lia). assert (DC : forall x, In x (bytes "cold") -> x <> 46) by (intros x Hx; vm_compute in Hx; lia).
  assert (PC : forall a b k, a ++ bytes ".__part." ++ decimal k <> b ++ bytes ".cold").
  { intros a b k X. rewrite part_suffix, cold_suffix in X. apply last_dot in X as [_ X]; [|apply DD|exact DC]. assert (Y : In 99 (decimal k)) by (rewrite X; left; reflexivity). apply decimal_digits in Y. lia. }
  destruct t as [|k|], u as [|l|].
  - auto.
  - destruct (NP n m l Hn Hm E).
  - destruct (NC n m Hn Hm E).
  - symmetry in E. destruct (NP m n k Hm Hn E).
  - rewrite !part_suffix in E. apply last_dot in E as [E1 E2]; [|apply DD|apply DD]. apply app_inv_tail in E1. apply decimal_inj in E2; [subst; auto|apply HK; auto|apply HK; auto].
  - destruct (PC n m k E).
  - symmetry in E. destruct (NC m n Hm Hn E).
  - symmetry in E. destruct (PC m n l E).
  - apply app_inv_tail in E. auto.
Qed.
Lemma NoDup_map_on {A B} (f : A -> B) l : NoDup l -> (forall x y, In x l -> In y l -> f x = f y -> x = y) -> NoDup (map f l).
Proof.
  induction l as [|x l IH]; intros N H; [constructor|]. inversion N as [|? ? N1 N2]; subst. cbn [map]. constructor.
  - intros X. apply in_map_iff in X as [y [E Hy]]. assert (y = x) by (apply H; auto; [right; exact Hy|left; reflexivity]). subst y. exact (N1 Hy).
  - apply IH; [exact N2|]. intros a b Ha Hb. apply H; right; assumption.
Qed.
(** The keys (name and kind) of the symbols of a section. *)
Section Keys.
  Context (cfgs : Z -> option wcfg) (zs : list winfo) (W : section_wf cfgs zs).
  Context (N : NoDup (flat_map (names_of cfgs) zs)).
  Context (ONE : forall z b b', In z zs -> In b (placed z) -> In b' (placed z) -> i_index b = 0 -> i_index b' = 0 -> b = b').
  Definition part_keys (p : winfo * Z * wcluster) : list (text * tag) :=
    map (fun n => (n, if has_entry (wc_blocks (snd p)) then Plain else Part (snd (fst p)))) (names_of cfgs (fst (fst p))).
  Definition cold_keys (z : winfo) (ks : list (text * tag)) : Prop :=
    ks = [] \/ ks = map (fun n => (n, if has_entry (placed z) then Cold else Plain)) (names_of cfgs z).
  Lemma names_nodup z : In z zs -> NoDup (names_of cfgs z).
  Proof.
    clear - N. intros Hz. induction zs as [|z0 l IH]; [destruct Hz|]. cbn [flat_map] in N. apply NoDup_app_inv in N as [N1 [N2 _]]. destruct Hz as [<-|Hz]; auto.
  Qed.
  Lemma tagged_nodup z (t : tag) : In z zs -> NoDup (map (fun n => (n, t)) (names_of cfgs z)).
  Proof. intros Hz. apply NoDup_map_on; [apply names_nodup; exact Hz|]. intros x y _ _ E. injection E as ->. reflexivity. Qed.
  Lemma part_keys_In p n t : In (n, t) (part_keys p) -> In n (names_of cfgs (fst (fst p))) /\ t = (if has_entry (wc_blocks (snd p)) then Plain else Part (snd (fst p))).
  Proof. intros H. apply in_map_iff in H as [m [E H]]. injection E as -> <-. auto. Qed.
  Lemma part_in p : In p (parts zs) -> In (fst (fst p)) zs /\ In (snd (fst p), snd p) (numbered 0 (wi_clusters (fst (fst p)))).
  Proof. intros H. apply in_flat_map in H as [z [Hz H]]. apply in_map_iff in H as [[k c] [<- H]]. cbn [fst snd]. auto. Qed.
  Lemma keys_nodup ps cs kss : Permutation ps (parts zs) -> map part_index ps = range (zlen (parts zs)) -> Permutation cs zs -> map wi_cold cs = range (zlen zs) -> Forall2 cold_keys cs kss ->
    NoDup (flat_map part_keys ps ++ concat kss).
  Proof.
    intros P1 P2 C1 C2 F. assert (PI : forall p, In p ps -> In p (parts zs)) by (intros p Hp; apply (Permutation_in _ P1); exact Hp). assert (CI : forall z, In z cs -> In z zs) by (intros z Hz; apply (Permutation_in _ C1); exact Hz).
    assert (NC : NoDup cs) by (apply (NoDup_map_inv wi_cold); rewrite C2; apply range_NoDup).
    assert (KI : forall n t, In (n, t) (concat kss) -> exists z, In z cs /\ In n (names_of cfgs z) /\ t = (if has_entry (placed z) then Cold else Plain)).
    { clear - F. induction F as [|z ks cs kss H F IH]; cbn [concat]; intros n t X; [destruct X|]. apply in_app_iff in X as [X|X].
      - exists z. split; [left; reflexivity|]. destruct H as [-> | ->]; [destruct X|]. apply in_map_iff in X as [m [E X]]. injection E as -> <-. auto.
      - destruct (IH n t X) as [z' [A B]]. exists z'. split; [right; exact A|exact B]. }
    apply NoDup_app_intro.
    - apply NoDup_flat_map_intro.
      + apply (NoDup_map_inv part_index). rewrite P2. apply range_NoDup.
      + intros p Hp. destruct (part_in p (PI p Hp)) as [Hz _]. apply tagged_nodup. exact Hz.
      + intros p q [n t] Hp Hq Xp Xq. destruct (part_in p (PI p Hp)) as [Hz Hc]. destruct (part_in q (PI q Hq)) as [Hz' Hc']. apply part_keys_In in Xp as [Np Tp]. apply part_keys_In in Xq as [Nq Tq].
        destruct p as [[z k] c], q as [[z' k'] c']. cbn [fst snd] in *. assert (z = z') by (eapply flat_map_same; eassumption). subst z'.
        destruct (has_entry (wc_blocks c)) eqn:E1, (has_entry (wc_blocks c')) eqn:E2; try congruence.
        * apply existsb_exists in E1 as [b [Hb E1]]. apply existsb_exists in E2 as [b' [Hb' E2]]. apply Z.eqb_eq in E1, E2.
          pose proof (numbered_In _ _ _ _ Hc) as [_ Ic]. pose proof (numbered_In _ _ _ _ Hc') as [_ Ic'].
          assert (b = b') by (apply (ONE z); auto; apply in_flat_map; eauto). subst b'.
          destruct (numbered_same wc_blocks (wi_clusters z) 0 k k' c c' b) as [-> ->]; auto. apply (sw_blocks _ _ W z Hz).
        * assert (k = k') by congruence. subst k'. rewrite (numbered_key _ _ _ _ _ Hc Hc'). reflexivity.
    - clear KI C1 C2. induction F as [|z ks cs kss H F IH]; cbn [concat]; [constructor|]. inversion NC as [|? ? N1 N2]; subst. apply NoDup_app_intro.
      + destruct H as [-> | ->]; [constructor|]. apply tagged_nodup, CI. left. reflexivity.
      + apply IH; [intros; apply CI; right; assumption|exact N2].
      + intros [n t] X Y. assert (Hn : In n (names_of cfgs z)) by (destruct H as [-> | ->]; [destruct X|]; apply in_map_iff in X as [m [E X]]; injection E as -> _; exact X).
        assert (Y' : exists z', In z' cs /\ In n (names_of cfgs z')).
        { clear - F Y. induction F as [|z' ks' cs kss H F IH]; cbn [concat] in Y; [destruct Y|]. apply in_app_iff in Y as [Y|Y].
          - exists z'. split; [left; reflexivity|]. destruct H as [-> | ->]; [destruct Y|]. apply in_map_iff in Y as [m [E Y]]. injection E as -> _. exact Y.
          - destruct (IH Y) as [z0 [A B]]. exists z0. split; [right; exact A|exact B]. }
        destruct Y' as [z' [Hz' Hn']]. assert (z = z') by (eapply flat_map_same; [exact N|apply CI; left; reflexivity|apply CI; right; exact Hz'|exact Hn|exact Hn']). subst z'. exact (N1 Hz').
    - intros [n t] X Y. apply in_flat_map in X as [p [Hp X]]. apply part_keys_In in X as [Np Tp]. destruct (part_in p (PI p Hp)) as [Hz Hc]. destruct (KI n t Y) as [z' [Hz' [Nn Tt]]].
      assert (fst (fst p) = z') by (eapply flat_map_same; [exact N|exact Hz|apply CI; exact Hz'|exact Np|exact Nn]). subst z'.
      destruct (has_entry (wc_blocks (snd p))) eqn:E1; [|rewrite Tp in Tt; destruct (has_entry (placed _)); discriminate].
      assert (E2 : has_entry (placed (fst (fst p))) = true); [|rewrite E2 in Tt; congruence]. apply existsb_exists in E1 as [b [Hb E1]]. apply existsb_exists. exists b. split; [|exact E1].
      pose proof (numbered_In _ _ _ _ Hc) as [_ Ic]. apply in_flat_map. eauto.
  Qed.
  Lemma section_keys ss : section_symbols cfgs zs ss -> exists ks, ss = map sym ks /\ NoDup ks /\ forall n t, In (n, t) ks -> In n (flat_map (names_of cfgs) zs) /\ forall k, t = Part k -> 0 <= k.
  Proof.
    intros [ps cs ss0 P1 P2 C1 C2 F]. assert (KS : exists kss, ss0 = map (map sym) kss /\ Forall2 cold_keys cs kss).
    { clear - F. induction F as [|z s cs ss H F IH]; [exists []; split; [reflexivity|constructor]|]. destruct IH as [kss [-> IH]]. destruct H as [H|H].
      - exists ([] :: kss). split; [reflexivity|]. constructor; [left; reflexivity|exact IH].
      - exists (map (fun n => (n, if has_entry (placed z) then Cold else Plain)) (names_of cfgs z) :: kss). split; [|constructor; [right; reflexivity|exact IH]].
        cbn [map]. f_equal. rewrite map_map. apply map_ext. intros n. unfold sym. cbn [fst snd]. destruct (has_entry (placed z)); reflexivity. }
    destruct KS as [kss [-> FK]]. exists (flat_map part_keys ps ++ concat kss). split; [|split].
    - rewrite map_app, concat_map. f_equal. clear. induction ps as [|[[z k] c] ps IH]; [reflexivity|]. cbn [flat_map]. rewrite map_app, IH. f_equal.
      unfold part_keys. cbn [fst snd part_symbols]. rewrite map_map. apply map_ext. intros n. unfold sym. cbn [fst snd]. destruct (has_entry (wc_blocks c)); reflexivity.
    - eapply keys_nodup; eassumption.
    - intros n t H. apply in_app_iff in H as [H|H].
      + apply in_flat_map in H as [p [Hp H]]. apply (Permutation_in _ P1) in Hp. destruct (part_in p Hp) as [Hz Hc]. apply part_keys_In in H as [Hn ->]. split; [apply in_flat_map; eauto|].
        intros k E. destruct (has_entry _); [discriminate|]. injection E as <-. apply numbered_In in Hc. lia.
      + assert (X : exists z, In z cs /\ In n (names_of cfgs z) /\ (t = Cold \/ t = Plain)).
        { clear - FK H. induction FK as [|z' ks' cs kss HH F IH]; cbn [concat] in H; [destruct H|]. apply in_app_iff in H as [Y|Y].
          - exists z'. split; [left; reflexivity|]. destruct HH as [-> | ->]; [destruct Y|]. apply in_map_iff in Y as [m [E Y]]. injection E as -> <-. split; [exact Y|]. destruct (has_entry _); auto.
          - destruct (IH Y) as [z0 [A B]]. exists z0. split; [right; exact A|exact B]. }
        destruct X as [z [Hz [Hn Ht]]]. split; [apply in_flat_map; exists z; split; [apply (Permutation_in _ C1); exact Hz|exact Hn]|]. intros k E. destruct Ht; subst t; discriminate.
  Qed.
End Keys.

(** No symbol is listed twice, if the names of the functions are all different
    and do not look like parts of other functions, and a function has only one
    block with index 0. *)
Theorem C33_no_symbol_twice verbose v cfgs secs : (forall s, In s secs -> section_wf cfgs (snd s) /\ paths_ok v cfgs (snd s)) ->
  names_ok (flat_map (names_of cfgs) (flat_map snd secs)) ->
  (forall s z b b', In s secs -> In z (snd s) -> In b (placed z) -> In b' (placed z) -> i_index b = 0 -> i_index b' = 0 -> b = b') ->
  exists cc symbols, Write verbose v cfgs secs = Ok (cc, lines symbols) /\ NoDup symbols.
Proof.
  intros H NO ONE. destruct (C33_symbol_file verbose v cfgs secs H) as [cc [sss [F Q]]]. exists cc, (concat sss). split; [exact Q|]. clear Q.
  assert (K : exists ks, concat sss = map sym ks /\ NoDup ks /\ forall n t, In (n, t) ks -> In n (flat_map (names_of cfgs) (flat_map snd secs)) /\ forall k, t = Part k -> 0 <= k).
  { pose proof (no_dup _ NO) as N. clear NO. revert sss F N. induction secs as [|s secs IH]; intros sss F N; cbn [map] in F; inversion F as [|? ss ? sss' F1 F2]; subst.
    - exists []. split; [reflexivity|]. split; [constructor|intros n t []].
    - cbn [flat_map] in N |- *. rewrite flat_map_app in N |- *. apply NoDup_app_inv in N as [N1 [N2 D]].
      destruct (IH (fun s' Hs => H s' (or_intror Hs)) (fun s' z b b' Hs => ONE s' z b b' (or_intror Hs)) sss' F2 N2) as [ks [E [NK IK]]].
      destruct (section_keys cfgs (snd s) (proj1 (H s (or_introl eq_refl))) N1 (fun z b b' => ONE s z b b' (or_introl eq_refl)) ss F1) as [ks1 [E1 [NK1 IK1]]].
      exists (ks1 ++ ks). split; [cbn [concat]; rewrite map_app, E, E1; reflexivity|]. split.
      + apply NoDup_app_intro; [exact NK1|exact NK|]. intros [n t] X Y. apply IK1 in X as [X _]. apply IK in Y as [Y _]. exact (D n X Y).
      + intros n t X. apply in_app_iff in X as [X|X]; [destruct (IK1 n t X) as [A B]|destruct (IK n t X) as [A B]]; (split; [apply in_app_iff; auto|exact B]). }
  destruct K as [ks [-> [NK IK]]]. apply NoDup_map_on; [exact NK|]. intros [n t] [m u] X Y E. destruct (IK _ _ X) as [A1 A2]. destruct (IK _ _ Y) as [B1 B2].
  destruct (sym_inj _ n t m u NO A1 B1) as [-> ->]; [intros k [K|K]; auto|exact E|reflexivity].
Qed.
Print Assumptions C33_no_symbol_twice.

(** * The result of the code layout can be written *)
Definition to_info (ids : Z -> bbid) (scores : finfo -> text) (z : finfo) : winfo :=
  WInfo (z_func z) (map (fun y => WCluster (y_index y) (map ids (y_blocks y))) (z_clusters z)) (scores z) (z_cold z).
Theorem C33_from_layout L gs zs ids scores cfgs : section_ok L gs -> OrderAll L gs = Ok zs ->
  (forall g, In g gs -> exists w, cfgs (l_func L g) = Some w /\ map wn_id (w_nodes w) = map ids (g_nodes g)) ->
  (forall g n m, In g gs -> In n (g_nodes g) -> In m (g_nodes g) -> ids n = ids m -> n = m) ->
  (forall g n, In g gs -> In n (g_nodes g) -> i_index (ids n) = 0 -> p_entry (q_prog (l_C L)) n = true) ->
  section_wf cfgs (map (to_info ids scores) zs).
Proof.
  intros SO Q CF INJ EN. destruct (C32_each_block_once L gs zs SO Q) as [ND [LO [NF FN]]]. destruct (C32_indices L gs zs SO Q) as [IX [CX _]]. destruct (C32_entry_and_together L gs zs SO Q) as [EF _].
  assert (GR : forall z, In z zs -> z_clusters z <> [] /\ forall y, In y (z_clusters z) -> y_blocks y <> []).
  { destruct (C32_layout L gs SO) as [cs [ks [zs' [_ [_ [Q' [_ [_ LI]]]]]]]]. rewrite Q in Q'. injection Q' as <-. intros z Hz. split; [apply (li_nonempty _ _ _ _ LI z Hz)|].
    intros y Hy. destruct (li_groups _ _ _ _ LI) as [G [GG [PC _]]]. assert (X : In (y_index y, (z_func z, y_blocks y)) (all_clusters zs)) by (apply in_flat_map; exists z; split; [exact Hz|apply in_map_iff; eauto]).
    apply (Permutation_in _ PC) in X. apply numbered_In in X as [_ X]. apply (gr_func _ _ _ _ GG _ _ X). }
  assert (BL : forall z y n, In z zs -> In y (z_clusters z) -> In n (y_blocks y) -> exists g, In g gs /\ In n (g_nodes g) /\ l_func L g = z_func z).
  { intros z y n Hz Hy Hn. assert (X : In n (info_blocks zs)) by (apply in_flat_map; exists z; split; [exact Hz|apply in_flat_map; eauto]).
    apply LO in X. apply laid_out_incl in X. apply in_flat_map in X as [g [Hg Hn']]. exists g. split; [exact Hg|]. split; [exact Hn'|]. rewrite <- (so_func _ _ SO g n Hg Hn'). eapply FN; eassumption. }
  assert (GZ : forall z, In z zs -> exists g w, In g gs /\ l_func L g = z_func z /\ cfgs (z_func z) = Some w /\ map wn_id (w_nodes w) = map ids (g_nodes g) /\ forall y n, In y (z_clusters z) -> In n (y_blocks y) -> In n (g_nodes g)).
  { intros z Hz. destruct (GR z Hz) as [NE NB]. destruct (z_clusters z) as [|y ys] eqn:E; [congruence|]. pose proof (NB y (or_introl eq_refl)) as NY. destruct (y_blocks y) as [|n bs] eqn:EY; [congruence|].
    destruct (BL z y n Hz) as [g [Hg [Hn EQ]]]; [rewrite E; left; reflexivity|rewrite EY; left; reflexivity|]. destruct (CF g Hg) as [w [W1 W2]]. exists g, w. rewrite <- EQ. repeat split; auto.
    intros y' n' Hy' Hn'. destruct (BL z y' n' Hz) as [g' [Hg' [Hn'' EQ']]]; [rewrite E; exact Hy'|exact Hn'|]. assert (g = g'); [|subst g'; exact Hn''].
    eapply (ClusterProofs.NoDup_map_inj (l_func L)); [exact (so_funcs _ _ SO)|exact Hg|exact Hg'|congruence]. }
  assert (PL : forall z, placed (to_info ids scores z) = map ids (flat_map y_blocks (z_clusters z))).
  { intros z. unfold placed, to_info. cbn [wi_clusters]. rewrite !flat_map_concat_map, map_map, concat_map, map_map. reflexivity. }
  assert (CL : flat_map wi_clusters (map (to_info ids scores) zs) = map (fun p : Z * (Z * list Z) => WCluster (fst p) (map ids (snd (snd p)))) (all_clusters zs)).
  { clear. unfold all_clusters. induction zs as [|z zs IH]; [reflexivity|]. cbn [map flat_map]. rewrite IH, map_app. f_equal. unfold to_info. cbn [wi_clusters]. rewrite map_map. reflexivity. }
  constructor.
  - intros z Hz. apply in_map_iff in Hz as [z0 [<- Hz]]. cbn [to_info wi_func]. destruct (GZ z0 Hz) as [g [w [_ [_ [-> _]]]]]. discriminate.
  - intros z c Hz Hc. apply in_map_iff in Hz as [z0 [<- Hz]]. cbn [to_info wi_clusters] in Hc. apply in_map_iff in Hc as [y [<- Hy]]. cbn [wc_blocks]. intros X. apply map_eq_nil in X. exact (proj2 (GR z0 Hz) y Hy X).
  - rewrite CL, map_map. cbn [wc_index]. unfold zlen. rewrite map_length. exact IX.
  - rewrite map_map. unfold zlen. rewrite map_length. exact CX.
  - intros z Hz. apply in_map_iff in Hz as [z0 [<- Hz]]. destruct (GZ z0 Hz) as [g [w [Hg [EQ [Hw [EN' IN]]]]]]. rewrite PL. unfold nodes_of. cbn [to_info wi_func]. rewrite Hw, EN'.
    assert (IB : forall n, In n (flat_map y_blocks (z_clusters z0)) -> In n (g_nodes g)) by (intros n Hn; apply in_flat_map in Hn as [y [Hy Hn]]; eapply IN; eassumption).
    assert (NZ : NoDup (flat_map y_blocks (z_clusters z0))).
    { clear - ND Hz. unfold info_blocks in ND. induction zs as [|z l IH]; [destruct Hz|]. cbn [flat_map] in ND. apply NoDup_app_inv in ND as [N1 [N2 _]]. destruct Hz as [<-|Hz]; auto. }
    assert (NG : NoDup (g_nodes g)).
    { pose proof (go_nodup _ _ (so_graphs _ _ SO)) as X. clear - X Hg. induction gs as [|g0 l IH]; [destruct Hg|]. cbn [flat_map] in X. apply NoDup_app_inv in X as [N1 [N2 _]]. destruct Hg as [<-|Hg]; auto. }
    split; [apply NoDup_map_on; [exact NZ|]; intros x y Hx Hy; apply (INJ g); auto|]. split; [apply NoDup_map_on; [exact NG|]; intros x y Hx Hy; apply (INJ g); auto|].
    split; [|intros b Hb; apply in_map_iff in Hb as [n [<- Hn]]; apply in_map; auto].
    destruct (GR z0 Hz) as [NE NB]. destruct (z_clusters z0) as [|y ys]; [congruence|]. pose proof (NB y (or_introl eq_refl)) as NY. destruct (y_blocks y) as [|n bs] eqn:EY; [congruence|].
    assert (Hn : In n (g_nodes g)) by (apply (IN y n); [left; reflexivity|rewrite EY; left; reflexivity]). intros X. apply map_eq_nil in X. rewrite X in Hn. destruct Hn.
  - intros z c b Hz Hc Hb E0. apply in_map_iff in Hz as [z0 [<- Hz]]. cbn [to_info wi_clusters] in Hc. apply in_map_iff in Hc as [y [<- Hy]]. cbn [wc_blocks] in Hb.
    destruct (GZ z0 Hz) as [g [w [Hg [EQ [Hw [EN' IN]]]]]]. destruct (y_blocks y) as [|n0 bs] eqn:EY; [destruct Hb|]. cbn [map tl] in Hb. apply in_map_iff in Hb as [n [<- Hn]].
    assert (Hng : In n (g_nodes g)) by (apply (IN y n Hy); rewrite EY; right; exact Hn).
    pose proof (EF z0 y n Hz Hy ltac:(rewrite EY; right; exact Hn) (EN g n Hg Hng E0)) as X. rewrite EY in X. cbn [hd] in X. subst n0.
    assert (NY : NoDup (y_blocks y)).
    { assert (NZ : NoDup (flat_map y_blocks (z_clusters z0))). { clear - ND Hz. unfold info_blocks in ND. induction zs as [|z l IH]; [destruct Hz|]. cbn [flat_map] in ND. apply NoDup_app_inv in ND as [N1 [N2 _]]. destruct Hz as [<-|Hz]; auto. }
      clear - NZ Hy. induction (z_clusters z0) as [|y0 l IH]; [destruct Hy|]. cbn [flat_map] in NZ. apply NoDup_app_inv in NZ as [N1 [N2 _]]. destruct Hy as [<-|Hy]; auto. }
    rewrite EY in NY. inversion NY; subst. auto.
Qed.
Print Assumptions C33_from_layout.

(** * C53: the cluster file can be read back *)
Theorem C53_read_back verbose v cfgs secs : (forall s, In s secs -> section_wf cfgs (snd s) /\ paths_ok v cfgs (snd s) /\ texts_ok v cfgs s) ->
  exists cc ld, Write verbose v cfgs secs = Ok (cc, ld) /\ read_file cc = Some (flat_map (fun s => map (entry_of cfgs) (snd s)) secs).
Proof.
  intros H. destruct (C33_symbol_file verbose v cfgs secs (fun s Hs => conj (proj1 (H s Hs)) (proj1 (proj2 (H s Hs))))) as [cc [sss [_ Q]]]. exists cc, (lines (concat sss)). split; [exact Q|].
  eapply read_back; [exact H|exact Q].
Qed.
Print Assumptions C53_read_back.

(** * Examples *)
Definition str (t : text) : string := string_of_list_ascii (map (fun b => ascii_of_nat (Z.to_nat b)) t).
Definition w_ids (n : Z) : bbid := BBId (n mod 10) (n mod 10) 0.
Definition w_cfgs (f : Z) : option wcfg :=
  if f =? 0 then Some (WCfg [bytes "foo"; bytes "foo2"] (Some (bytes "a.cc")) [] (map (fun n => WNode (w_ids n) 1 []) [0; 1; 2; 3]))
  else if f =? 1 then Some (WCfg [bytes "bar"] None [[BBId 0 0 0; BBId 1 1 0]] (map (fun n => WNode (w_ids n) 1 []) [10; 11]))
  else None.
(** The layout of C32_nonvacuous with function bar between the blocks of foo. *)
Definition w_zs : list finfo := match OrderAll (la_L true) [la_g0; la_g1] with Ok zs => zs | _ => [] end.
Definition w_list : list winfo := Eval vm_compute in map (to_info w_ids (fun _ => bytes "#ext-tsp score: []")) w_zs.
Definition w_secs : list (text * list winfo) := [(bytes ".text", w_list)].
Lemma w_wf : section_wf w_cfgs w_list.
Proof.
  replace w_list with (map (to_info w_ids (fun _ => bytes "#ext-tsp score: []")) w_zs) by (vm_compute; reflexivity). apply (C33_from_layout (la_L true) [la_g0; la_g1]).
  - apply la_ok.
  - vm_compute. reflexivity.
  - intros g [<-|[<-|[]]]; eexists; (split; [reflexivity|reflexivity]).
  - intros g n m [<-|[<-|[]]] Hn Hm E; cbn in Hn, Hm; repeat (destruct Hn as [<-|Hn]; [repeat (destruct Hm as [<-|Hm]; [first [reflexivity|discriminate]|]); destruct Hm|]); destruct Hn.
  - intros g n [<-|[<-|[]]] Hn E; cbn in Hn; repeat (destruct Hn as [<-|Hn]; [first [reflexivity|discriminate]|]); destruct Hn.
Qed.
Definition files (r : outcome (text * text)) : option (string * string) := match r with Ok (a, b) => Some (str a, str b) | _ => None end.
Definition newline : string := str [10].
Definition text_lines (l : list string) : string := fold_right (fun a b => (a ++ newline ++ b)%string) EmptyString l.
Example C33_nonvacuous : (forall s, In s w_secs -> section_wf w_cfgs (snd s) /\ paths_ok V1 w_cfgs (snd s)) /\
  files (Write false V1 w_cfgs w_secs) = Some
    (text_lines ["v1"; "m a.cc"; "f foo foo2"; "c0 1"; "c2"; "f bar"; "p0 1"; "c0 1"]%string,
     text_lines ["foo"; "foo2"; "bar"; "foo.__part.1"; "foo2.__part.1"; "foo.cold"; "foo2.cold"]%string).
Proof.
  split; [|vm_compute; reflexivity]. intros s [<-|[]]. split; [exact w_wf|]. intros V. discriminate V.
Qed.
Lemma free_bytes bad s : forallb (fun b => forallb (fun x => negb (x =? b)) bad) (bytes s) = true -> free bad (bytes s).
Proof.
  intros H b Hb X. rewrite forallb_forall in H. specialize (H b Hb). rewrite forallb_forall in H. specialize (H b X). rewrite Z.eqb_refl in H. discriminate.
Qed.
Lemma w_infos z : In z (snd (hd ([], []) w_secs)) -> wi_func z = 0 \/ wi_func z = 1.
Proof. intros [<-|[<-|[]]]; auto. Qed.
Example C53_nonvacuous : (forall s, In s w_secs -> section_wf w_cfgs (snd s) /\ paths_ok V1 w_cfgs (snd s) /\ texts_ok V1 w_cfgs s) /\
  (match Write true V1 w_cfgs w_secs with Ok (cc, _) => read_file cc | _ => None end) =
    Some [FEntry [bytes "foo"; bytes "foo2"] (Some (bytes "a.cc")) [] [[(0, 0); (1, 0)]; [(2, 0)]]; FEntry [bytes "bar"] None [[0; 1]] [[(0, 0); (1, 0)]]].
Proof.
  split; [|vm_compute; reflexivity]. intros s Hs. split; [|split].
  - destruct Hs as [<-|[]]. exact w_wf.
  - intros V. discriminate V.
  - destruct Hs as [<-|[]]. constructor.
    + apply free_bytes. reflexivity.
    + intros z [<-|[<-|[]]]; (split; [nofree|reflexivity]).
    + intros z c b [<-|[<-|[]]] Hc Hb; cbn in Hc; repeat (destruct Hc as [<-|Hc]; [vm_compute in Hb; repeat (destruct Hb as [<-|Hb]; [vm_compute; split; discriminate|]); destruct Hb|]); destruct Hc.
    + intros z g Hz G. destruct (w_infos z Hz) as [E|E]; rewrite E in G; vm_compute in G; injection G as <-; (split; [discriminate|]); intros n Hn; vm_compute in Hn; repeat (destruct Hn as [<-|Hn]; [nofree|]); destruct Hn.
    + intros V. discriminate V.
    + intros z g m Hz G. destruct (w_infos z Hz) as [E|E]; rewrite E in G; vm_compute in G; injection G as <-; intros M; [injection M as <-; nofree|discriminate].
    + intros z g p Hz G. destruct (w_infos z Hz) as [E|E]; rewrite E in G; vm_compute in G; injection G as <-; intros Hp; [destruct Hp|]. destruct Hp as [<-|[]]. split; [discriminate|]. intros b [<-|[<-|[]]]; vm_compute; discriminate.
Qed.

(** With two blocks of index 0 in the clusters (the entry block and a clone of
    it) the name of the function is listed twice and the second cluster has no
    symbol of its own. *)
Definition c_cfgs (f : Z) : option wcfg := if f =? 0 then Some (WCfg [bytes "foo"] None [] [WNode (BBId 0 0 0) 1 []; WNode (BBId 0 0 1) 1 []]) else None.
Theorem C33_entry_clone_refuted : exists z, section_wf c_cfgs [z] /\
  files (Write false V1 c_cfgs [(bytes ".text", [z])]) = Some (text_lines ["v1"; "f foo"; "c0"; "c0.1"]%string, text_lines ["foo"; "foo"]%string).
Proof.
  exists (WInfo 0 [WCluster 0 [BBId 0 0 0]; WCluster 1 [BBId 0 0 1]] [] 0). split; [|vm_compute; reflexivity]. constructor.
  - intros z [<-|[]]. discriminate.
  - intros z c [<-|[]] [<-|[<-|[]]]; discriminate.
  - apply Permutation_refl.
  - apply Permutation_refl.
  - intros z [<-|[]]. vm_compute. split; [|split; [|split]]; try discriminate; [repeat constructor; cbn; intuition congruence..|]. intros b Hb. exact Hb.
  - intros z c b [<-|[]] [<-|[<-|[]]] [].
Qed.
(** A function named like the cold part of another one. *)
Definition n_cfgs (f : Z) : option wcfg :=
  if f =? 0 then Some (WCfg [bytes "foo"] None [] [WNode (BBId 0 0 0) 1 []; WNode (BBId 1 1 0) 1 []])
  else if f =? 1 then Some (WCfg [bytes "foo.cold"] None [] [WNode (BBId 0 0 0) 1 []]) else None.
Theorem C33_name_clash_refuted : exists zs, section_wf n_cfgs zs /\
  option_map snd (files (Write false V1 n_cfgs [(bytes ".text", zs)])) = Some (text_lines ["foo"; "foo.cold"; "foo.cold"]%string).
Proof.
  exists [WInfo 0 [WCluster 0 [BBId 0 0 0]] [] 0; WInfo 1 [WCluster 1 [BBId 0 0 0]] [] 1]. split; [|vm_compute; reflexivity]. constructor.
  - intros z [<-|[<-|[]]]; discriminate.
  - intros z c [<-|[<-|[]]] [<-|[]]; discriminate.
  - apply Permutation_refl.
  - apply Permutation_refl.
  - intros z [<-|[<-|[]]]; vm_compute; (split; [|split; [|split]]); try discriminate; try (repeat constructor; cbn; intuition congruence); intros b [<-|[]]; left; reflexivity.
  - intros z c b [<-|[<-|[]]] [<-|[]] [].
Qed.
