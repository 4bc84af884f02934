(** C80: the sampled functions of a binary. *)
From Verif Require Import Base SymbolModel AddrModel SampledModel SampledSpec.
From Coq Require Import Sorted.
Open Scope Z_scope.

Notation addr_table := (list (Z * (name * Z))) (only parsing).
Lemma map_put_In k z m x : ~ In k (map fst m) -> In x (map_put k z m) <-> x = (k, z) \/ In x m.
Proof.
  induction m as [|[k' z'] m IH]; intros N; cbn [map_put In map fst] in *; [intuition|].
  destruct (Z.ltb_spec k k'); [cbn [In]; intuition|]. destruct (Z.ltb_spec k' k); [cbn [In]; rewrite IH by tauto; tauto|]. destruct N. left. lia.
Qed.
Lemma map_put_old k z m : In k (map fst m) -> StronglySorted (fun a b => fst a < fst b) m -> map_put k z m = m.
Proof.
  intros H S. induction S as [|[k' z'] m S IH F]; [destruct H|]. rewrite Forall_forall in F. cbn [map_put map fst In] in *. destruct H as [<-|H].
  - destruct (Z.ltb_spec k' k'); [lia|reflexivity].
  - apply in_map_iff in H as [e [<- He]]. specialize (F e He). cbn [fst] in F. destruct (Z.ltb_spec (fst e) k'); [lia|]. destruct (Z.ltb_spec k' (fst e)); [|reflexivity]. f_equal. apply IH. apply in_map, He.
Qed.
Lemma map_put_sorted k z m : StronglySorted (fun a b => fst a < fst b) m -> StronglySorted (fun a b => fst a < fst b) (map_put k z m) /\ forall x, In x (map fst (map_put k z m)) -> x = k \/ In x (map fst m).
Proof.
  induction 1 as [|[k' z'] m S [I1 I2] F]; cbn [map_put].
  - split; [repeat constructor|]. intros x [<-|[]]. auto.
  - rewrite Forall_forall in F. cbn [fst] in F. destruct (Z.ltb_spec k k') as [L|L]; [|destruct (Z.ltb_spec k' k) as [L'|L']].
    + split; [|cbn [map fst In]; intuition]. constructor; [constructor; [exact S|apply Forall_forall, F]|]. constructor; [exact L|]. apply Forall_forall. intros e He. specialize (F e He). cbn [fst]. lia.
    + split; [|cbn [map fst In]; intros x [<-|H]; [auto|destruct (I2 x H); auto]]. constructor; [exact I1|]. apply Forall_forall. intros e He. cbn [fst]. destruct (I2 (fst e) (in_map fst _ _ He)) as [->|H]; [exact L'|]. apply in_map_iff in H as [e' [<- He']]. exact (F e' He').
    + split; [constructor; [exact S|apply Forall_forall, F]|cbn [map fst In]; auto].
Qed.

Lemma entry_before_ok (t : addr_table) a : StronglySorted (fun a b => fst a < fst b /\ fst a + snd (snd a) <= fst b) t -> forall best,
  match entry_before t a best with
  | Some e => (In e t /\ at_or_before t (fst e) a) \/ (best = Some e /\ forall e', In e' t -> a < fst e')
  | None => best = None /\ forall e', In e' t -> a < fst e'
  end.
Proof.
  induction 1 as [|e t S IH F]; intros best; cbn [entry_before].
  - destruct best as [e|]; [right|]; (split; [reflexivity|intros e' []]).
  - rewrite Forall_forall in F. destruct (Z.ltb_spec a (fst e)) as [L|L].
    + assert (X : forall e', In e' (e :: t) -> a < fst e') by (intros e' [<-|H]; [exact L|destruct (F e' H); lia]). destruct best as [b|]; [right|]; split; auto.
    + specialize (IH (Some e)). destruct (entry_before t a (Some e)) as [b|]; [|destruct IH; discriminate]. left. destruct IH as [[A [B C]]|[E B]].
      * split; [right; exact A|]. split; [exact B|]. intros e' [<-|H] Q; [destruct (F b A); lia|exact (C e' H Q)].
      * injection E as <-. split; [left; reflexivity|]. split; [exact L|]. intros e' [<-|H] Q; [lia|]. specialize (B e' H). lia.
Qed.
Lemma same_key (t : addr_table) e e' : disjoint t -> In e t -> In e' t -> fst e = fst e' -> e = e'.
Proof.
  intros [S _]. induction S as [|x t S IH F]; [intros []|]. rewrite Forall_forall in F. intros [->|H] [->|H'] E; auto; [destruct (F e' H'); lia|destruct (F e H); lia].
Qed.
(** An address inside a function. *)
Lemma inside (t : addr_table) e v : disjoint t -> In e t -> fst e <= v < fst e + snd (snd e) -> at_or_before t (fst e) v.
Proof.
  intros [S _] H [A B]. split; [exact A|]. intros e' H' Q. induction S as [|x t S IH F]; [destruct H|]. rewrite Forall_forall in F.
  destruct H as [->|H], H' as [->|H']; [lia|destruct (F e' H'); lia|destruct (F e H); lia|auto].
Qed.
Definition sorted_map (m : list (Z * Z)) : Prop := StronglySorted (fun a b => fst a < fst b) m.
(** Every entry of the result is one of the table. *)
Definition from (t : addr_table) (m : list (Z * Z)) : Prop := forall k z, In (k, z) m -> exists n, In (k, (n, z)) t.
Lemma put_from t k n z m : disjoint t -> In (k, (n, z)) t -> sorted_map m -> from t m ->
  sorted_map (map_put k z m) /\ from t (map_put k z m) /\ forall x, In x (map_put k z m) <-> x = (k, z) \/ In x m.
Proof.
  intros D H S F. destruct (in_dec Z.eq_dec k (map fst m)) as [I|N].
  - rewrite (map_put_old k z m I S). split; [exact S|]. split; [exact F|]. intros x. split; [auto|]. intros [->|X]; [|exact X]. apply in_map_iff in I as [[k' z'] [E I]]. cbn [fst] in E. subst k'.
    destruct (F k z' I) as [n' H']. pose proof (same_key t _ _ D H H' eq_refl) as Q. injection Q as -> ->. exact I.
  - assert (X : forall x, In x (map_put k z m) <-> x = (k, z) \/ In x m) by (intros x; apply map_put_In, N). split; [apply map_put_sorted, S|]. split; [|exact X].
    intros k' z' H'. apply X in H' as [E|H']; [injection E as -> ->; eauto|exact (F k' z' H')].
Qed.

Lemma loop_ok segs t addrs : forall next ret va, disjoint t -> (forall a, In a addrs -> get_static_vaddr segs a = Ok (va a)) ->
  StronglySorted (fun a b => va a <= va b) addrs -> sorted_map ret -> from t ret ->
  (next <= 0 \/ exists e, In e t /\ next <= fst e + snd (snd e) /\ In (fst e, snd (snd e)) ret /\ forall a, In a addrs -> fst e <= va a) ->
  (forall a, In a addrs -> 0 <= va a) ->
  exists r, sampled_loop segs t addrs next ret = Ok r /\ sorted_map r /\ from t r /\
    forall k z, In (k, z) r <-> In (k, z) ret \/ exists n a, In (k, (n, z)) t /\ In a addrs /\ at_or_before t k (va a).
Proof.
  induction addrs as [|a addrs IH]; intros next ret va D V M SR FR NX NN; cbn [sampled_loop].
  - exists ret. split; [reflexivity|]. split; [exact SR|]. split; [exact FR|]. intros k z. split; [auto|]. intros [H|[n [a [_ [[] _]]]]]. exact H.
  - inversion M as [|? ? M' F]; subst. rewrite Forall_forall in F. rewrite (V a (or_introl eq_refl)). cbn [obind]. pose proof (entry_before_ok t (va a) (proj1 D) None) as EB.
    assert (V' : forall b, In b addrs -> get_static_vaddr segs b = Ok (va b)) by (intros b H; apply V; right; exact H).
    assert (NN' : forall b, In b addrs -> 0 <= va b) by (intros b H; apply NN; right; exact H).
    destruct (Z.ltb_spec (va a) next) as [L|L].
    + destruct NX as [NX|[e [He [N1 [N2 N3]]]]]; [specialize (NN a (or_introl eq_refl)); lia|].
      destruct (IH next ret va D V' M' SR FR) as [r [E [S [FF I]]]]; [right; exists e; split; [exact He|]; split; [exact N1|]; split; [exact N2|]; intros b H; apply N3; right; exact H|exact NN'|].
      exists r. split; [exact E|]. split; [exact S|]. split; [exact FF|]. intros k z. rewrite I. split; [intros [H|[n [b [H1 [H2 H3]]]]]; [auto|right; exists n, b; split; [exact H1|]; split; [right; exact H2|exact H3]]|].
      intros [H|[n [b [H1 [[<-|H2] H3]]]]]; [auto| |right; eauto]. left. pose proof (N3 a (or_introl eq_refl)) as Q. assert (AB : at_or_before t (fst e) (va a)) by (apply inside; [exact D|exact He|lia]).
      destruct AB as [A1 A2], H3 as [B1 B2]. pose proof (A2 _ H1 B1) as X. pose proof (B2 _ He A1) as Y. cbn [fst] in X. assert (Q' : (k, (n, z)) = e) by (apply (same_key t); auto; cbn [fst]; lia). subst e. exact N2.
    + destruct (entry_before t (va a) None) as [[k0 [n0 z0]]|].
      * destruct EB as [[H0 AB]|[X _]]; [|discriminate]. cbn [fst] in AB. destruct (put_from t k0 n0 z0 ret D H0 SR FR) as [P1 [P2 P3]].
        destruct (IH (u64 (k0 + z0)) (map_put k0 z0 ret) va D V' M' P1 P2) as [r [E [S [FF I]]]].
        { right. exists (k0, (n0, z0)). cbn [fst snd]. split; [exact H0|]. split; [destruct (proj2 D _ H0) as [Q1 Q2]; cbn [fst snd] in Q1, Q2; unfold u64; apply Z.mod_le; [lia|reflexivity]|]. split; [apply P3; auto|]. intros b H. destruct AB. specialize (F b H). lia. }
        { exact NN'. }
        exists r. split; [exact E|]. split; [exact S|]. split; [exact FF|]. intros k z. rewrite I, P3. split.
        -- intros [[Q|H]|[n [b [H1 [H2 H3]]]]]; [injection Q as -> ->; right; exists n0, a; split; [exact H0|]; split; [left; reflexivity|exact AB]|auto|right; exists n, b; split; [exact H1|]; split; [right; exact H2|exact H3]].
        -- intros [H|[n [b [H1 [[<-|H2] H3]]]]]; [auto| |right; eauto]. left. left. destruct AB as [A1 A2], H3 as [B1 B2]. pose proof (A2 _ H1 B1) as X. pose proof (B2 _ H0 A1) as Y. cbn [fst] in X, Y.
           assert (Q' : (k, (n, z)) = (k0, (n0, z0))) by (apply (same_key t); auto; cbn [fst]; lia). injection Q' as -> _ ->. reflexivity.
      * destruct EB as [_ EB]. destruct (IH next ret va D V' M' SR FR) as [r [E [S [FF I]]]]; [destruct NX as [NX|[e [He [N1 [N2 N3]]]]]; [auto|right; exists e; split; [exact He|]; split; [exact N1|]; split; [exact N2|]; intros b H; apply N3; right; exact H]|exact NN'|].
        exists r. split; [exact E|]. split; [exact S|]. split; [exact FF|]. intros k z. rewrite I. split; [intros [H|[n [b [H1 [H2 H3]]]]]; [auto|right; exists n, b; split; [exact H1|]; split; [right; exact H2|exact H3]]|].
        intros [H|[n [b [H1 [[<-|H2] H3]]]]]; [auto| |right; eauto]. destruct H3 as [B1 _]. specialize (EB _ H1). cbn [fst] in EB. lia.
Qed.

(** The map holds a function with its size exactly if it is the last one at or
    before a sampled address, or has a count in the profile; in order of
    addresses, each once. *)
Theorem C80_sampled segs totals t addrs va : disjoint t -> (forall a, In a addrs -> get_static_vaddr segs a = Ok (va a) /\ 0 <= va a) ->
  StronglySorted (fun a b => va a <= va b) addrs ->
  exists r, GetSampledSymbolStartAddressSizeMap segs totals t addrs = Ok r /\ StronglySorted (fun a b => fst a < fst b) r /\
    forall k z, In (k, z) r <-> exists n, In (k, (n, z)) t /\ ((exists a, In a addrs /\ at_or_before t k (va a)) \/ exists c, totals n = Some c /\ 0 < c).
Proof.
  intros D V M. unfold GetSampledSymbolStartAddressSizeMap.
  destruct (loop_ok segs t addrs 0 [] va D (fun a H => proj1 (V a H)) M) as [r [E [S [F I]]]]; [constructor|intros k z []|left; lia|intros a H; apply (V a H)|]. rewrite E. cbn [obind]. clear E.
  assert (G : forall t1 r, (forall e, In e t1 -> In e t) -> sorted_map r -> from t r -> sorted_map (add_counted totals t1 r) /\ from t (add_counted totals t1 r) /\
    forall k z, In (k, z) (add_counted totals t1 r) <-> In (k, z) r \/ exists n c, In (k, (n, z)) t1 /\ totals n = Some c /\ 0 < c).
  { clear -D. unfold add_counted. induction t1 as [|[k0 [n0 z0]] t1 IH]; intros r SB S F; cbn [fold_left fst snd].
    - split; [exact S|]. split; [exact F|]. intros k z. split; [auto|]. intros [H|[n [c [[] _]]]]. exact H.
    - pose proof (SB _ (or_introl eq_refl)) as H0. assert (SB' : forall e, In e t1 -> In e t) by (intros e H; apply SB; right; exact H).
      assert (W : forall r', sorted_map r' -> from t r' -> (forall k z, In (k, z) r' <-> In (k, z) r \/ (k = k0 /\ z = z0 /\ exists c, totals n0 = Some c /\ 0 < c)) ->
        let f := fun ret (e : Z * (name * Z)) => if existsb (fun x => fst x =? fst e) ret then ret else match totals (fst (snd e)) with Some c => if 0 <? c then map_put (fst e) (snd (snd e)) ret else ret | None => ret end in
        sorted_map (fold_left f t1 r') /\ from t (fold_left f t1 r') /\ forall k z, In (k, z) (fold_left f t1 r') <-> In (k, z) r \/ exists n c, In (k, (n, z)) ((k0, (n0, z0)) :: t1) /\ totals n = Some c /\ 0 < c).
      { intros r' S' F' X f. destruct (IH r' SB' S' F') as [A [B C]]. split; [exact A|]. split; [exact B|]. intros k z. etransitivity; [exact (C k z)|]. rewrite X. cbn [In]. split.
        - intros [[H|[-> [-> [c H]]]]|[n [c [H H']]]]; [auto|right; exists n0, c; auto|right; exists n, c; auto].
        - intros [H|[n [c [[Q|H] H']]]]; [auto|injection Q as -> -> ->; left; right; eauto|right; eauto]. }
      destruct (existsb _ r) eqn:EX.
      + apply W; [exact S|exact F|]. apply existsb_exists in EX as [[k1 z1] [H1 Q]]. cbn [fst] in Q. apply Z.eqb_eq in Q. subst k1. destruct (F _ _ H1) as [n1 H1']. pose proof (same_key t _ _ D H0 H1' eq_refl) as Q. injection Q as <- <-.
        intros k z. split; [auto|]. intros [H|[-> [-> _]]]; assumption.
      + destruct (totals n0) as [c|] eqn:T.
        * destruct (Z.ltb_spec 0 c) as [P|P].
          -- destruct (put_from t k0 n0 z0 r D H0 S F) as [P1 [P2 P3]]. apply W; [exact P1|exact P2|]. intros k z. rewrite P3. split; [intros [Q|H]; [injection Q as -> ->; right; split; [reflexivity|]; split; [reflexivity|]; exists c; auto|auto]|intros [H|[-> [-> _]]]; auto].
          -- apply W; [exact S|exact F|]. intros k z. split; [auto|]. intros [H|[_ [_ [c' [Q Q']]]]]; [exact H|]. injection Q as <-. lia.
        * apply W; [exact S|exact F|]. intros k z. split; [auto|]. intros [H|[_ [_ [c' [Q _]]]]]; [exact H|discriminate]. }
  destruct (G t r (fun e H => H) S F) as [A [B C]]. eexists. split; [reflexivity|]. split; [exact A|]. intros k z. rewrite C, I. cbn [In]. split.
  - intros [[[]|[n [a [H1 [H2 H3]]]]]|[n [c [H1 H2]]]]; [exists n; split; [exact H1|left; eauto]|exists n; split; [exact H1|right; eauto]].
  - intros [n [H [[a [H2 H3]]|[c H2]]]]; [left; right; eauto|right; eauto].
Qed.
Print Assumptions C80_sampled.

Definition x_segs : list (Z * Z) := [(4096, 4202496)].
Definition x_table : addr_table := [(4202496, ([97], 16)); (4202512, ([98], 32)); (4202560, ([99], 16)); (4202600, ([100], 8))].
Definition x_addrs : list Z := [4100; 4104; 4150; 4212].
Definition x_va (a : Z) : Z := a + 4198400.
Definition x_totals (n : name) : option Z := if name_eqb n [99] then Some 5 else if name_eqb n [97] then Some 0 else None.
Example C80_nonvacuous : disjoint x_table /\ (forall a, In a x_addrs -> get_static_vaddr x_segs a = Ok (x_va a) /\ 0 <= x_va a) /\
  StronglySorted (fun a b => x_va a <= x_va b) x_addrs /\
  GetSampledSymbolStartAddressSizeMap x_segs x_totals x_table x_addrs = Ok [(4202496, 16); (4202512, 32); (4202560, 16); (4202600, 8)].
Proof.
  split; [|split; [|split]].
  - split; [unfold x_table; repeat (constructor; [|repeat (constructor; [cbn; lia|]); constructor]); constructor|]. intros e H. cbn in H. repeat (destruct H as [<-|H]; [cbn; lia|]). destruct H.
  - intros a H. cbn in H. repeat (destruct H as [<-|H]; [split; [vm_compute; reflexivity|unfold x_va; lia]|]). destruct H.
  - unfold x_addrs, x_va. repeat (constructor; [|repeat (constructor; [lia|]); constructor]); constructor.
  - vm_compute. reflexivity.
Qed.
(** "Functions that have been sampled" (symbol_map.h:537): a function without a
    count counts as sampled for an address behind its end, ... *)
Theorem C80_behind_end_refuted : exists segs t k n z a v, disjoint t /\ In (k, (n, z)) t /\ get_static_vaddr segs a = Ok v /\ k + z < v /\
  (forall e, In e t -> ~ (fst e <= v < fst e + snd (snd e))) /\ GetSampledSymbolStartAddressSizeMap segs (fun _ => None) t [a] = Ok [(k, z)].
Proof.
  exists x_segs, [(4202496, ([97], 16))], 4202496, [97], 16, 8192, 4206592.
  split; [split; [repeat constructor|intros e [<-|[]]; cbn; lia]|]. split; [left; reflexivity|]. split; [vm_compute; reflexivity|]. split; [lia|]. split; [intros e [<-|[]]; cbn; lia|]. vm_compute. reflexivity.
Qed.
Print Assumptions C80_behind_end_refuted.
(** ... and one that begins inside another is missed after a sample before it. *)
Theorem C80_nested_refuted : exists segs t k n z a a' v, StronglySorted (fun a b => fst a < fst b) t /\ In (k, (n, z)) t /\ a < a' /\ get_static_vaddr segs a' = Ok v /\
  at_or_before t k v /\ v < k + z /\ exists r, GetSampledSymbolStartAddressSizeMap segs (fun _ => None) t [a; a'] = Ok r /\ ~ In (k, z) r.
Proof.
  exists x_segs, [(4202496, ([97], 16)); (4202504, ([98], 8))], 4202504, [98], 8, 4097, 4105, 4202505.
  split; [repeat (constructor; [|repeat (constructor; [cbn; lia|]); constructor]); constructor|]. split; [right; left; reflexivity|]. split; [lia|]. split; [vm_compute; reflexivity|].
  split; [split; [lia|]; intros e [<-|[<-|[]]]; cbn; lia|]. split; [lia|]. eexists. split; [vm_compute; reflexivity|]. intros [H|[]]. discriminate.
Qed.
Print Assumptions C80_nested_refuted.
