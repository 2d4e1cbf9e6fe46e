(** * RescaleTools: groups of groups of candles. *)
From Coq Require Import String Lia Reals.
From Verif Require Import Base Num B64 XReal Order Klines SpecTa SpecKlines SpecNum KlineFloat TaTools TaStat RSum ShiftTools KlineConvert2 SpecRescale.
Set Implicit Arguments.
Open Scope Z_scope.

Section Groups.
Context {N : Num}.

Lemma nth_error_firstn_lt X (l : list X) n i : (i < n)%nat -> nth_error (firstn n l) i = nth_error l i.
Proof. revert n i. induction l as [|x l IH]; intros [|n] [|i] H; cbn; try reflexivity; try lia. apply IH. lia. Qed.

Lemma group_nth (cs : list Candle) k j i : (i < k)%nat -> nth_error (group cs k j) i = nth_error cs (j * k + i).
Proof. intros H. unfold group. rewrite nth_error_firstn_lt by exact H. apply nth_error_skipn. Qed.
Lemma group_len (cs : list Candle) k j : (j * k + k <= length cs)%nat -> length (group cs k j) = k.
Proof. intros H. unfold group. rewrite firstn_length, skipn_length. lia. Qed.
Lemma group_in X (f : Candle -> X) (cs : list Candle) k j x : In x (map f (group cs k j)) <-> exists i c, (i < k)%nat /\ nth_error cs (j * k + i) = Some c /\ x = f c.
Proof.
  rewrite in_map_iff. split.
  - intros (c & <- & Hc). apply In_nth_error in Hc. destruct Hc as [i Hi].
    assert (Hk : (i < k)%nat). { assert (A : (i < length (group cs k j))%nat) by (apply nth_error_Some; congruence). unfold group in A. rewrite firstn_length in A. lia. }
    exists i, c. split; [exact Hk|]. split; [|reflexivity]. now rewrite <- group_nth.
  - intros (i & c & Hi & Hc & ->). exists c. split; [reflexivity|]. apply nth_error_In with (n := i). now rewrite group_nth.
Qed.
Lemma group_hd (cs : list Candle) k j c d : (1 <= k)%nat -> nth_error cs (j * k) = Some c -> hd d (group cs k j) = c.
Proof.
  intros Hk Hc. pose proof (@group_nth cs k j 0 ltac:(lia)) as G. rewrite Nat.add_0_r, Hc in G. destruct (group cs k j); cbn in G; [discriminate|]. now injection G.
Qed.
Lemma last_nth_error X (l : list X) d : forall c n, length l = S n -> nth_error l n = Some c -> last l d = c.
Proof.
  induction l as [|x l IH]; intros c n Hl Hc; [discriminate|]. destruct l as [|y l]; [destruct n; [now injection Hc|discriminate]|].
  destruct n as [|n]; [discriminate|]. change (last (x :: y :: l) d) with (last (y :: l) d). apply (IH c n); [cbn in *; lia|exact Hc].
Qed.
Lemma group_last (cs : list Candle) k j c d : (1 <= k)%nat -> (j * k + k <= length cs)%nat -> nth_error cs (j * k + (k - 1)) = Some c -> last (group cs k j) d = c.
Proof. intros Hk Hl Hc. apply (@last_nth_error _ _ d c (k - 1)); [rewrite group_len by exact Hl; lia|]. now rewrite group_nth by lia. Qed.

Hypothesis OL : OrdLaws N.
Lemma max_max a b (l l' : list F) : (forall x, In x l -> nn x) -> (forall x, In x l' -> nn x) ->
  (forall x, In x l -> exists y, In y l' /\ le x y) -> (forall x, In x l' -> exists y, In y l /\ le x y) -> max_of a l -> max_of b l' -> (a ==~ b) = true.
Proof.
  intros Nl Nl' H1 H2 [(x & Hx & Ex) Ma] [(y & Hy & Ey) Mb]. destruct (feq_nn OL _ _ Ex) as [Na Nx]. destruct (feq_nn OL _ _ Ey) as [Nb Ny].
  apply (feq_le OL) in Ex; auto. apply (feq_le OL) in Ey; auto. apply (feq_le OL); auto. split.
  - destruct (H1 x Hx) as (z & Hz & Lz). pose proof (Mb z Hz) as Mz. apply (fle_le OL) in Mz; auto. eapply (le_trans OL) with (y := z); auto. eapply (le_trans OL) with (y := x); auto. apply Ex.
  - destruct (H2 y Hy) as (z & Hz & Lz). pose proof (Ma z Hz) as Mz. apply (fle_le OL) in Mz; auto. eapply (le_trans OL) with (y := z); auto. eapply (le_trans OL) with (y := y); auto. apply Ey.
Qed.
Lemma min_min a b (l l' : list F) : (forall x, In x l -> nn x) -> (forall x, In x l' -> nn x) ->
  (forall x, In x l -> exists y, In y l' /\ le y x) -> (forall x, In x l' -> exists y, In y l /\ le y x) -> min_of a l -> min_of b l' -> (a ==~ b) = true.
Proof.
  intros Nl Nl' H1 H2 [(x & Hx & Ex) Ma] [(y & Hy & Ey) Mb]. destruct (feq_nn OL _ _ Ex) as [Na Nx]. destruct (feq_nn OL _ _ Ey) as [Nb Ny].
  apply (feq_le OL) in Ex; auto. apply (feq_le OL) in Ey; auto. apply (feq_le OL); auto. split.
  - destruct (H2 y Hy) as (z & Hz & Lz). pose proof (Ma z Hz) as Mz. apply (fle_le OL) in Mz; auto. eapply (le_trans OL) with (y := z); auto. eapply (le_trans OL) with (y := y); auto. apply Ey.
  - destruct (H1 x Hx) as (z & Hz & Lz). pose proof (Mb z Hz) as Mz. apply (fle_le OL) in Mz; auto. eapply (le_trans OL) with (y := z); auto. eapply (le_trans OL) with (y := x); auto. apply Ex.
Qed.

Definition bars (cs : list Candle) (k : nat) (cs' : list Candle) : Prop :=
  length cs' = (length cs / k)%nat /\ forall j c, nth_error cs' j = Some c -> aggregates (group cs k j) (group cs k j) c.

Lemma priced_at (cs : list Candle) i c : priced cs -> nth_error cs i = Some c -> nn (cHigh c) /\ nn (cLow c) /\ (cLow c ==~ ofZ 0) = false.
Proof. intros H Hc. unfold priced in H. rewrite Forall_forall in H. exact (H c (nth_error_In _ _ Hc)). Qed.
Lemma nth_some X (l : list X) i : (i < length l)%nat -> exists c, nth_error l i = Some c.
Proof. intros H. destruct (nth_error l i) as [c|] eqn:E; [now exists c|]. apply nth_error_None in E. lia. Qed.

Lemma bars_evenly (cs cs' : list Candle) k t0 s : (1 <= k)%nat -> evenly cs t0 s -> bars cs k cs' -> evenly cs' t0 (Z.of_nat k * s).
Proof.
  intros Hk He [Hl Hb] j c Hc. pose proof (Hb j c Hc) as (Ht & _).
  assert (Hj : (j < length cs / k)%nat) by (rewrite <- Hl; apply nth_error_Some; congruence).
  destruct (@nth_some _ cs (j * k)) as [b Eb]; [pose proof (Nat.mul_div_le (length cs) k ltac:(lia)); nia|].
  rewrite (@group_hd cs k j b (blank 0) Hk Eb) in Ht. rewrite Ht, (He _ _ Eb). lia.
Qed.
Lemma bars_priced (cs cs' : list Candle) k : priced cs -> bars cs k cs' -> priced cs'.
Proof.
  intros Hp [Hl Hb]. apply Forall_forall. intros c Hc. apply In_nth_error in Hc. destruct Hc as [j Hj].
  destruct (Hb j c Hj) as (_ & _ & _ & [(h & Hh & Eh) _] & [(l & Hlo & El) _] & _).
  destruct (feq_nn OL _ _ Eh) as [N1 _]. destruct (feq_nn OL _ _ El) as [N2 N3]. split; [exact N1|]. split; [exact N2|].
  apply group_in in Hlo. destruct Hlo as (i & b & Hi & Eb & ->). destruct (priced_at _ Hp Eb) as (_ & _ & Z0).
  destruct (cLow c ==~ ofZ 0) eqn:E; [|reflexivity]. exfalso. destruct (feq_nn OL _ _ E) as [_ Nz].
  apply (feq_le OL) in E; auto. apply (feq_le OL) in El; auto. enough (T : (cLow b ==~ ofZ 0) = true) by congruence.
  apply (feq_le OL); auto. split; eapply (le_trans OL) with (y := cLow c); auto; tauto.
Qed.
(** bars of bars are bars *)
Lemma bars_bars (cs cs1 cs2 cs3 : list Candle) k1 k2 q : (1 <= k1)%nat -> (1 <= k2)%nat -> length cs = (q * (k1 * k2))%nat -> priced cs ->
  bars cs k1 cs1 -> bars cs1 k2 cs2 -> bars cs (k1 * k2) cs3 -> Forall2 same_bar cs2 cs3.
Proof.
  intros H1 H2 Hn Hp B1 B2 B3. pose proof (bars_priced Hp B1) as Hp1. destruct B1 as [L1 G1], B2 as [L2 G2], B3 as [L3 G3].
  assert (E1 : length cs1 = (q * k2)%nat) by (rewrite L1, Hn; replace (q * (k1 * k2))%nat with (q * k2 * k1)%nat by lia; apply Nat.div_mul; lia).
  assert (E2 : length cs2 = q) by (rewrite L2, E1; apply Nat.div_mul; lia).
  assert (E3 : length cs3 = q) by (rewrite L3, Hn; apply Nat.div_mul; nia).
  assert (K : forall j c2 c3, nth_error cs2 j = Some c2 -> nth_error cs3 j = Some c3 -> same_bar c2 c3).
  { intros j c2 c3 N2 N3. assert (Hj : (j < q)%nat) by (rewrite <- E2; apply nth_error_Some; congruence).
    destruct (G2 _ _ N2) as (T2 & O2 & C2 & M2 & m2 & _ & X2 & U2). destruct (G3 _ _ N3) as (T3 & O3 & C3 & M3 & m3 & _ & X3 & U3).
    assert (R1 : (j * k2 + k2 <= q * k2)%nat) by nia. assert (R : (j * (k1 * k2) + k1 * k2 <= q * (k1 * k2))%nat) by nia.
    (* first and last candle *)
    destruct (@nth_some _ cs1 (j * k2)) as [a Ea]; [lia|]. destruct (@nth_some _ cs1 (j * k2 + (k2 - 1))) as [z Ez]; [lia|].
    destruct (@nth_some _ cs (j * (k1 * k2))) as [a' Ea']; [nia|]. destruct (@nth_some _ cs (j * (k1 * k2) + (k1 * k2 - 1))) as [z' Ez']; [nia|].
    rewrite (@group_hd cs1 k2 j a (blank 0) H2 Ea) in T2, O2. rewrite (@group_hd cs (k1 * k2) j a' (blank 0) ltac:(nia) Ea') in T3, O3.
    rewrite (@group_last cs1 k2 j z (blank 0) H2 ltac:(lia) Ez) in C2. rewrite (@group_last cs (k1 * k2) j z' (blank 0) ltac:(nia) ltac:(lia) Ez') in C3.
    destruct (G1 _ _ Ea) as (Ta & Oa & _). destruct (G1 _ _ Ez) as (_ & _ & Cz & _).
    assert (Ea1 : nth_error cs (j * k2 * k1) = Some a') by (rewrite <- Ea'; f_equal; lia). rewrite (@group_hd cs k1 (j * k2) a' (blank 0) H1 Ea1) in Ta, Oa.
    assert (Ez1 : nth_error cs ((j * k2 + (k2 - 1)) * k1 + (k1 - 1)) = Some z') by (rewrite <- Ez'; f_equal; nia).
    rewrite (@group_last cs k1 (j * k2 + (k2 - 1)) z' (blank 0) H1 ltac:(nia) Ez1) in Cz.
    (* where a candle is found *)
    assert (Down : forall i c, (i < k1 * k2)%nat -> nth_error cs (j * (k1 * k2) + i) = Some c ->
        exists i1 i2 b, (i1 < k2)%nat /\ (i2 < k1)%nat /\ nth_error cs1 (j * k2 + i1) = Some b /\ nth_error cs ((j * k2 + i1) * k1 + i2) = Some c).
    { intros i c Hi Ec. pose proof (Nat.div_mod i k1 ltac:(lia)) as Dm. pose proof (Nat.mod_upper_bound i k1 ltac:(lia)) as Bm.
      assert (Hd : (i / k1 < k2)%nat) by (apply Nat.div_lt_upper_bound; lia).
      destruct (@nth_some _ cs1 (j * k2 + i / k1)) as [b Eb]; [lia|]. exists (i / k1)%nat, (i mod k1)%nat, b. repeat split; auto. rewrite <- Ec. f_equal. nia. }
    assert (Up : forall i1 i2 b, (i1 < k2)%nat -> (i2 < k1)%nat -> nth_error cs ((j * k2 + i1) * k1 + i2) = Some b ->
        (i1 * k1 + i2 < k1 * k2)%nat /\ nth_error cs (j * (k1 * k2) + (i1 * k1 + i2)) = Some b).
    { intros i1 i2 b Hi1 Hi2 Eb. split; [nia|]. rewrite <- Eb. f_equal. nia. }
    split; [congruence|]. split; [congruence|]. split; [congruence|].
    assert (Eo : cOpen c2 = cOpen c3) by congruence. assert (Ec : cClose c2 = cClose c3) by congruence.
    split; [|split; [|split; [now rewrite X2, X3, Eo, Ec|now rewrite U2, U3, Eo, Ec]]].
    - apply (max_max (l := map cHigh (group cs1 k2 j)) (l' := map cHigh (group cs (k1 * k2) j))); [| | | |exact M2|exact M3].
      + intros x Hx. apply group_in in Hx. destruct Hx as (i & c & Hi & Ec' & ->). apply (priced_at _ Hp1 Ec').
      + intros x Hx. apply group_in in Hx. destruct Hx as (i & c & Hi & Ec' & ->). apply (priced_at _ Hp Ec').
      + intros x Hx. apply group_in in Hx. destruct Hx as (i & c & Hi & Ec' & ->). destruct (G1 _ _ Ec') as (_ & _ & _ & [(h & Hh & Eh) _] & _).
        apply group_in in Hh. destruct Hh as (i2 & b & Hi2 & Eb & ->). destruct (Up _ _ _ Hi Hi2 Eb) as [Hu Eu]. exists (cHigh b).
        split; [apply group_in; exists (i * k1 + i2)%nat, b; auto|]. destruct (feq_nn OL _ _ Eh). apply (feq_le OL) in Eh; tauto.
      + intros x Hx. apply group_in in Hx. destruct Hx as (i & c & Hi & Ec' & ->). destruct (Down _ _ Hi Ec') as (i1 & i2 & b & Hi1 & Hi2 & Eb & Ec2).
        exists (cHigh b). split; [apply group_in; exists i1, b; auto|]. destruct (G1 _ _ Eb) as (_ & _ & _ & [_ Mh] & _).
        apply (fle_le OL); [apply (priced_at _ Hp Ec')|apply (priced_at _ Hp1 Eb)|]. apply Mh. apply group_in. exists i2, c. auto.
    - apply (min_min (l := map cLow (group cs1 k2 j)) (l' := map cLow (group cs (k1 * k2) j))); [| | | |exact m2|exact m3].
      + intros x Hx. apply group_in in Hx. destruct Hx as (i & c & Hi & Ec' & ->). apply (priced_at _ Hp1 Ec').
      + intros x Hx. apply group_in in Hx. destruct Hx as (i & c & Hi & Ec' & ->). apply (priced_at _ Hp Ec').
      + intros x Hx. apply group_in in Hx. destruct Hx as (i & c & Hi & Ec' & ->). destruct (G1 _ _ Ec') as (_ & _ & _ & _ & [(h & Hh & Eh) _] & _).
        apply group_in in Hh. destruct Hh as (i2 & b & Hi2 & Eb & ->). destruct (Up _ _ _ Hi Hi2 Eb) as [Hu Eu]. exists (cLow b).
        split; [apply group_in; exists (i * k1 + i2)%nat, b; auto|]. destruct (feq_nn OL _ _ Eh). apply (feq_le OL) in Eh; tauto.
      + intros x Hx. apply group_in in Hx. destruct Hx as (i & c & Hi & Ec' & ->). destruct (Down _ _ Hi Ec') as (i1 & i2 & b & Hi1 & Hi2 & Eb & Ec2).
        exists (cLow b). split; [apply group_in; exists i1, b; auto|]. destruct (G1 _ _ Eb) as (_ & _ & _ & _ & [_ Mh] & _).
        apply (fle_le OL); [apply (priced_at _ Hp1 Eb)|apply (priced_at _ Hp Ec')|]. apply Mh. apply group_in. exists i2, c. auto. }
  clear -E2 E3 K. revert cs3 q E2 E3 K. induction cs2 as [|c l IH]; intros [|c' l'] q E2 E3 K; cbn in *; try lia; constructor.
  - apply (K 0%nat); reflexivity.
  - apply (IH l' (pred q)); try lia. intros j. apply (K (S j)).
Qed.
(** two results for the same group *)
Lemma same_group (g : list Candle) c c' : priced g -> aggregates g g c -> aggregates g g c' -> same_bar c c' /\ cVolume c = cVolume c'.
Proof.
  intros Hp (T & O & C & M & m & V & X & U) (T' & O' & C' & M' & m' & V' & X' & U').
  assert (Nh : forall x, In x (map cHigh g) -> nn x) by (intros x Hx; apply in_map_iff in Hx; destruct Hx as (b & <- & Hb); unfold priced in Hp; rewrite Forall_forall in Hp; apply (Hp b Hb)).
  assert (Nl : forall x, In x (map cLow g) -> nn x) by (intros x Hx; apply in_map_iff in Hx; destruct Hx as (b & <- & Hb); unfold priced in Hp; rewrite Forall_forall in Hp; apply (Hp b Hb)).
  split; [|congruence]. split; [congruence|]. split; [congruence|]. split; [congruence|].
  assert (Eo : cOpen c = cOpen c') by congruence. assert (Ec : cClose c = cClose c') by congruence.
  split; [|split; [|split; [now rewrite X, X', Eo, Ec|now rewrite U, U', Eo, Ec]]].
  - apply (max_max Nh Nh); auto; intros x Hx; exists x; split; auto; apply (le_refl OL); auto.
  - apply (min_min Nl Nl); auto; intros x Hx; exists x; split; auto; apply (le_refl OL); auto.
Qed.

Hypothesis IL : IntLaws N.
(** ConvertToNewInterval when whole groups are there *)
Lemma converts now (e : Item) (t0 s : Z) (k : nat) :
  let cs := iCandles e in let n := length cs in let newI := Z.of_nat k * (s * second) in
  0 < s -> (2 <= k)%nat -> (k <= n)%nat -> (n mod k = 0)%nat -> iInterval e = s * second -> evenly cs t0 s -> priced cs ->
  (exists a, unix t0 = zero_time + a * newI) -> set_times (unix t0) (unix (t0 + Z.of_nat n * s)) -> (Z.of_nat n + Z.of_nat k) * s * second <= max_dur ->
  exists cs', ConvertToNewInterval now (Some e) newI = Ok (inr (mkPItem (iExchange e) newI EmptyString EmptyString (map Some cs'))) /\ bars cs k cs'.
Proof.
  intros cs n newI Hs Hk Hkn Hmod HI Hev Hpr Ha Ht Hm.
  destruct (@convert_spec N IL OL now e t0 s k) as (cs' & E & Hl & Hagg); auto.
  exists cs'. split; [exact E|]. split; [exact Hl|]. intros j c Hc. specialize (Hagg j c Hc). fold cs n in Hagg.
  destruct (Nat.eqb_spec (S j) (n / k)) as [Hj|Hj]; [|exact Hagg].
  replace (skipn (j * k) cs) with (group cs k j) in Hagg; [exact Hagg|]. unfold group. apply firstn_all2. rewrite skipn_length. fold n.
  pose proof (Nat.div_mod n k ltac:(lia)). nia.
Qed.
End Groups.

(** ** Volumes in exact arithmetic *)
Open Scope R_scope.
Definition has_volumes (cs : list (@Candle XR)) (vs : list R) : Prop := map (@cVolume XR) cs = fins vs.
Lemma sum_part (vs : list R) a k : Rsum (firstn k (skipn a vs)) = sumf (fun i => nth (a + i) vs 0) k.
Proof.
  revert a. induction k as [|k IH]; intros a; [reflexivity|]. destruct (Nat.lt_ge_cases a (length vs)) as [H|H].
  - destruct (skipn a vs) as [|x l] eqn:E; [exfalso; assert (L : length (skipn a vs) = 0%nat) by (now rewrite E); rewrite skipn_length in L; lia|].
    cbn [firstn]. rewrite Rsum_cons, sumf_first, Nat.add_0_r. f_equal.
    + rewrite <- (Nat.add_0_r a), <- nth_skipn, E. reflexivity.
    + replace l with (skipn (S a) vs); [rewrite IH; apply sumf_ext; intros i _; f_equal; lia|].
      clear -E. revert vs E. induction a as [|a IHa]; intros [|y vs] E; cbn in *; try discriminate; [now injection E|]. now apply IHa.
  - rewrite skipn_all2 by lia. cbn [firstn]. assert (Z0 : forall m, sumf (fun i => nth (a + i) vs 0) m = 0).
    { induction m as [|m IHm]; [reflexivity|]. cbn. rewrite IHm, nth_overflow by lia. lra. }
    now rewrite Z0.
Qed.
Lemma sumf_blocks f k1 : forall k2, sumf (fun i => sumf (fun l => f (i * k1 + l)%nat) k1) k2 = sumf f (k2 * k1).
Proof. induction k2 as [|k2 IH]; [reflexivity|]. cbn [sumf]. rewrite IH. replace (S k2 * k1)%nat with (k2 * k1 + k1)%nat by lia. now rewrite sumf_split. Qed.
Lemma bars_volumes (cs cs' : list (@Candle XR)) k vs : has_volumes cs vs -> bars cs k cs' ->
  has_volumes cs' (tab (length cs / k) (fun j => sumf (fun i => nth (j * k + i) vs 0) k)).
Proof.
  intros Hv [Hl Hb]. unfold has_volumes. assert (G : forall j c, nth_error cs' j = Some c -> cVolume c = Fin (sumf (fun i => nth (j * k + i) vs 0) k)).
  { intros j c Hc. destruct (Hb j c Hc) as (_ & _ & _ & _ & _ & V & _). rewrite V. unfold group. rewrite <- firstn_map, <- skipn_map. unfold has_volumes in Hv. rewrite Hv.
    unfold fins. rewrite skipn_map, firstn_map. change (fold_left (@fadd XR) (fins (firstn k (skipn (j * k) vs))) (Fin 0) = Fin (sumf (fun i => nth (j * k + i) vs 0) k)).
    rewrite fold_fadd_fins, Rplus_0_l, sum_part. reflexivity. }
  rewrite <- Hl. set (g := fun j => sumf (fun i => nth (j * k + i) vs 0) k).
  assert (H : forall (l : list (@Candle XR)) (g : nat -> R), (forall j c, nth_error l j = Some c -> cVolume c = Fin (g j)) -> map (@cVolume XR) l = fins (tab (length l) g)).
  { clear. induction l as [|c l IH]; intros g G; [reflexivity|]. cbn [map length]. unfold tab. cbn [seq map fins]. rewrite (G 0%nat c eq_refl). f_equal.
    rewrite <- seq_shift, (map_map S g). exact (IH (fun j => g (S j)) (fun j c' H => G (S j) c' H)). }
  exact (H cs' g G).
Qed.
Lemma bars_bars_volumes (cs cs1 cs2 cs3 : list (@Candle XR)) k1 k2 q vs : (1 <= k1)%nat -> (1 <= k2)%nat -> length cs = (q * (k1 * k2))%nat -> has_volumes cs vs ->
  bars cs k1 cs1 -> bars cs1 k2 cs2 -> bars cs (k1 * k2) cs3 -> map (@cVolume XR) cs2 = map (@cVolume XR) cs3.
Proof.
  intros H1 H2 Hn Hv B1 B2 B3. pose proof (bars_volumes Hv B1) as V1. pose proof (bars_volumes V1 B2) as V2. pose proof (bars_volumes Hv B3) as V3.
  unfold has_volumes in V2, V3. rewrite V2, V3. f_equal.
  assert (E1 : (length cs / k1 = q * k2)%nat) by (rewrite Hn; replace (q * (k1 * k2))%nat with (q * k2 * k1)%nat by lia; apply Nat.div_mul; lia).
  rewrite (proj1 B1), E1, Nat.div_mul by lia. rewrite Hn, Nat.div_mul by nia. apply tab_ext. intros j Hj.
  rewrite (sumf_ext _ (fun i => sumf (fun l => nth (j * (k1 * k2) + (i * k1 + l)) vs 0) k1)).
  - rewrite (sumf_blocks (fun x => nth (j * (k1 * k2) + x) vs 0) k1 k2). now rewrite (Nat.mul_comm k2 k1).
  - intros i Hi. rewrite tab_nth by nia. apply sumf_ext. intros l Hl. f_equal. nia.
Qed.
