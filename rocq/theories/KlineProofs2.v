(** * KlineProofs2: date ranges, HasDataAtDate, columns, Heikin-Ashi, sorting. *)
From Coq Require Import Permutation String.
From Verif Require Import Base Num XReal Klines SpecKlines KlineFloat TaTools.
Set Implicit Arguments.

(** ** Rounding of instants *)
Lemma tround_nearest t d : 0 < d -> nearest t d (tround t d).
Proof.
  intros Hd. unfold tround, nearest. replace (d <=? 0) with false by (symmetry; apply Z.leb_gt; lia).
  pose proof (Z.mod_pos_bound (t - zero_time) d Hd) as B.
  pose proof (Z.div_mod (t - zero_time) d ltac:(lia)) as D.
  set (q := (t - zero_time) / d) in *. set (r := (t - zero_time) mod d) in *.
  destruct (Z.ltb_spec (r + r) d).
  - split; [exists q; lia|lia].
  - split; [exists (q + 1); lia|lia].
Qed.
Lemma nearest_unique t d r r' : 0 < d -> nearest t d r -> nearest t d r' -> r = r'.
Proof. intros Hd ([k ->] & H1 & H2) ([k' ->] & H3 & H4).
  assert ((k - k') * d < d) by lia. assert ((k' - k) * d < d) by lia.
  assert (k - k' < 1) by nia. assert (k' - k < 1) by nia. replace k' with k by lia. reflexivity.
Qed.
Lemma nearest_mono t t' d r r' : 0 < d -> t <= t' -> nearest t d r -> nearest t' d r' -> r <= r'.
Proof. intros Hd Ht ([k ->] & H1 & H2) ([k' ->] & H3 & H4).
  assert ((k - k') * d < d) by lia. assert (k - k' < 1) by nia. nia.
Qed.
Lemma nearest_exact k d : 0 < d -> nearest (zero_time + k * d) d (zero_time + k * d).
Proof. intros Hd. split; [eauto|lia]. Qed.

Lemma tsub_ok a b : min_dur <= a - b <= max_dur -> tsub a b = a - b.
Proof. unfold tsub. lia. Qed.

(** ** CalculateCandleDateRanges *)
Lemma fill_spec I k rs : 0 <= k ->
  fill_intervals I k rs = Ok (rs + k * I, tab (Z.to_nat k) (interval_at rs I)).
Proof.
  intros Hk. unfold fill_intervals. rewrite make_ok by lia. cbn [bind].
  set (n := Z.to_nat k).
  replace (len (repeat zeroID n)) with (Z.of_nat n) by (unfold len; now rewrite repeat_length).
  change 0 with (Z.of_nat 0).
  rewrite for_nat with (st := fun i => (rs + Z.of_nat i * I, partial zeroID (interval_at rs I) n i)).
  - rewrite partial_full. subst n. rewrite Z2Nat.id by lia. reflexivity.
  - lia.
  - rewrite partial_0. f_equal. lia.
  - intros i Hi. cbv zeta. rewrite partial_set with (f := interval_at rs I); [|lia|].
    + cbn [bind]. f_equal. f_equal. lia.
    + unfold interval_at. f_equal; f_equal; lia.
Qed.

Section Ranges.
Variables (C L I s0 : Z) (n : nat).
Hypothesis HI : 0 < I.
Hypothesis HL : 0 <= L.
Hypothesis HC : 0 <= C.
Hypothesis Hlow : forall x, (x < n)%nat -> Z.of_nat x * L <= C.
Hypothesis Hhigh : C <= Z.of_nat n * L.
Hypothesis Hn : (0 < n)%nat.

(** boundaries of the x-th range, in intervals *)
Definition bnd (x : nat) : Z := Z.min (Z.of_nat x * L) C.
Definition range_at (x : nat) : IntervalRange :=
  mkIR (CreateIntervalTime (s0 + bnd x * I)) (CreateIntervalTime (s0 + bnd (S x) * I))
       (tab (Z.to_nat (bnd (S x) - bnd x)) (interval_at (s0 + bnd x * I) I)).

Lemma ranges_loop :
  for_ 0 (Z.of_nat n) (fun x '(count, requestStart, reqs) =>
      let rstart := CreateIntervalTime requestStart in
      let count := count - L in
      '(requestStart, ivs) <-
        fill_intervals I (if count <? 0 then count + L else L) requestStart ;;
      reqs <- set reqs x (mkIR rstart (CreateIntervalTime requestStart) ivs) ;;
      Ok (count, requestStart, reqs)) (C, s0, repeat zeroIR n)
  = Ok (C - Z.of_nat n * L, s0 + C * I, tab n range_at).
Proof.
  change 0 with (Z.of_nat 0) at 1.
  rewrite for_nat with (st := fun x => (C - Z.of_nat x * L, s0 + bnd x * I, partial zeroIR range_at n x)).
  - rewrite partial_full. repeat f_equal. unfold bnd. lia.
  - lia.
  - rewrite partial_0. unfold bnd. repeat f_equal; lia.
  - intros x Hx. cbv zeta. pose proof (Hlow (proj2 Hx)) as Hlx.
    assert (E : (if C - Z.of_nat x * L - L <? 0 then C - Z.of_nat x * L - L + L else L) = bnd (S x) - bnd x).
    { unfold bnd. destruct (Z.ltb_spec (C - Z.of_nat x * L - L) 0); nia. }
    rewrite E. assert (Hb : 0 <= bnd (S x) - bnd x) by (unfold bnd; nia).
    rewrite fill_spec by exact Hb. cbn [bind].
    rewrite partial_set with (f := range_at); [|lia|].
    + cbn [bind]. replace (s0 + bnd x * I + (bnd (S x) - bnd x) * I) with (s0 + bnd (S x) * I) by ring.
      replace (C - Z.of_nat x * L - L) with (C - Z.of_nat (S x) * L) by lia. reflexivity.
    + unfold range_at. do 2 f_equal. lia.
Qed.

Lemma tab_interval_shift a k : tab k (interval_at (s0 + Z.of_nat a * I) I) = tab k (fun j => interval_at s0 I (a + j)).
Proof. apply tab_ext. intros j _. unfold interval_at. f_equal; f_equal; lia. Qed.

Lemma ranges_concat x : (x <= n)%nat ->
  flat_map irIntervals (tab x range_at) = tab (Z.to_nat (bnd x)) (interval_at s0 I).
Proof.
  induction x as [|x IH]; intros Hx.
  - unfold bnd. cbn [Z.of_nat]. rewrite Z.mul_0_l, Z.min_l by lia. reflexivity.
  - rewrite tab_S, flat_map_app, IH by lia. cbn [flat_map range_at irIntervals]. rewrite app_nil_r.
    assert (Hb : 0 <= bnd x <= bnd (S x)) by (unfold bnd; nia).
    replace (bnd x * I) with (Z.of_nat (Z.to_nat (bnd x)) * I) by (rewrite Z2Nat.id by lia; reflexivity).
    rewrite tab_interval_shift.
    replace (Z.to_nat (bnd (S x))) with (Z.to_nat (bnd x) + Z.to_nat (bnd (S x) - bnd x))%nat by lia.
    rewrite tab_app. reflexivity.
Qed.

Lemma range_at_spans x : (x < n)%nat -> range_spans (range_at x).
Proof.
  intros Hx. unfold range_spans, range_at. cbn [irIntervals irStart irEnd].
  assert (Hb : 0 <= bnd x <= bnd (S x)) by (unfold bnd; nia).
  destruct (Z.to_nat (bnd (S x) - bnd x)) as [|k] eqn:Ek.
  - cbn. replace (bnd (S x)) with (bnd x) by lia. reflexivity.
  - pose proof (tab_length (S k) (interval_at (s0 + bnd x * I) I)) as Hlen.
    destruct (tab (S k) (interval_at (s0 + bnd x * I) I)) as [|d l] eqn:Et; [discriminate|].
    assert (Ed : d = interval_at (s0 + bnd x * I) I 0).
    { pose proof (@tab_nth _ (S k) (interval_at (s0 + bnd x * I) I) 0 d ltac:(lia)) as H. rewrite Et in H. exact H. }
    split.
    + rewrite Ed. unfold interval_at. cbn [idStart]. f_equal. lia.
    + rewrite tab_S in Et. rewrite <- Et, last_last. unfold interval_at. cbn [idEnd]. f_equal. nia.
Qed.

Lemma range_at_length x : (x < n)%nat -> 0 < L -> Z.of_nat (length (irIntervals (range_at x))) <= L.
Proof.
  intros Hx HL0. cbn [range_at irIntervals]. rewrite tab_length. pose proof (Hlow Hx). unfold bnd. nia.
Qed.
End Ranges.

Lemma needed_bounds C L : 0 <= C -> 0 < L ->
  0 < requests_needed C L /\ C <= requests_needed C L * L /\
  (forall x, 0 <= x < requests_needed C L -> x * L <= C).
Proof.
  intros HC HL. unfold requests_needed.
  pose proof (Z.div_mod (C + L - 1) L ltac:(lia)) as D.
  pose proof (Z.mod_pos_bound (C + L - 1) L HL) as B.
  set (q := (C + L - 1) / L) in *. split; [lia|]. split; [nia|]. intros x Hx. nia.
Qed.

Lemma time_check_ok now start end_ : set_times start end_ -> start < end_ ->
  StartEndTimeCheck now start end_ = None \/ StartEndTimeCheck now start end_ = Some ErrStartAfterNow.
Proof.
  intros (H1 & H2 & H3 & H4) Hlt. unfold StartEndTimeCheck.
  apply Z.eqb_neq in H1, H2, H3, H4. rewrite H1, H2, H3, H4. cbn [orb].
  replace (start >? end_) with false by (symmetry; rewrite Z.gtb_ltb; apply Z.ltb_ge; lia).
  replace (start =? end_) with false by (symmetry; apply Z.eqb_neq; lia).
  destruct (start >? now); auto.
Qed.

Definition the_limit (C limit : Z) : Z := if limit =? 0 then C else limit.
Definition the_requests (C limit : Z) : Z := if limit =? 0 then 1 else requests_needed C limit.

Lemma ranges_spec (N : Num) (IL : IntLaws N) now start end_ I limit s0 e0 C :
  set_times start end_ -> start < end_ -> 0 < I -> 0 <= limit < 2 ^ 32 ->
  nearest start I s0 -> nearest end_ I e0 -> e0 - s0 = C * I -> e0 - s0 <= max_dur ->
  C < 2 ^ 50 -> (limit = 0 -> C < 2 ^ 32) ->
  let L := the_limit C limit in
  let n := Z.to_nat (the_requests C limit) in
  0 <= C /\ 0 <= L /\ (0 < n)%nat /\ (forall x, (x < n)%nat -> Z.of_nat x * L <= C) /\ C <= Z.of_nat n * L /\
  CalculateCandleDateRanges now start end_ I limit =
    Ok (inr (mkIRH (CreateIntervalTime s0) (CreateIntervalTime e0) (tab n (range_at C L I s0)) L)).
Proof.
  intros Ht Hlt HI Hl Hs He Hw Hm HC50 HC0 L n.
  assert (Hse : s0 <= e0) by (eapply nearest_mono; [exact HI| |exact Hs|exact He]; lia).
  assert (HC : 0 <= C) by nia.
  assert (HL : 0 <= L) by (unfold L, the_limit; destruct (limit =? 0); lia).
  assert (Hnn : (0 < n)%nat /\ (forall x, (x < n)%nat -> Z.of_nat x * L <= C) /\ C <= Z.of_nat n * L).
  { unfold n, L, the_requests, the_limit. destruct (Z.eqb_spec limit 0).
    - split; [cbn; lia|]. split; [|lia]. intros x Hx. change (Z.to_nat 1) with 1%nat in Hx.
      replace x with 0%nat by lia. lia.
    - destruct (@needed_bounds C limit) as (B1 & B2 & B3); [lia..|].
      split; [lia|]. split; [intros x Hx; apply B3; lia|]. rewrite Z2Nat.id by lia. exact B2. }
  destruct Hnn as (Hn & Hlow & Hhigh). do 5 (split; [assumption|]).
  unfold CalculateCandleDateRanges.
  assert (G : forall A (a b : A) e, (StartEndTimeCheck now start end_ = None \/ StartEndTimeCheck now start end_ = Some ErrStartAfterNow) ->
     a = b -> match StartEndTimeCheck now start end_ with None => a | Some ErrStartAfterNow => a | Some er => e er end = b).
  { intros A a b e [->| ->] ->; reflexivity. }
  apply (G _ _ _ (fun er => Ok (inl er))); [now apply time_check_ok|]. clear G.
  replace (I <=? 0) with false by (symmetry; apply Z.leb_gt; lia).
  rewrite (nearest_unique HI (tround_nearest start HI) Hs).
  rewrite (nearest_unique HI (tround_nearest end_ HI) He).
  rewrite tsub_ok by (unfold min_dur; lia). rewrite Hw, Z.quot_mul by lia.
  assert (Hp : request_plan C limit = (Z.of_nat n, L)).
  { unfold n, L, the_requests, the_limit. destruct (Z.eqb_spec limit 0) as [->|].
    - rewrite (il_plan0 IL) by lia. rewrite Z.mod_small by lia. reflexivity.
    - rewrite (il_plan IL) by lia. destruct (@needed_bounds C limit) as (B1 & _); [lia..|].
      rewrite Z2Nat.id by lia. reflexivity. }
  rewrite Hp. rewrite make_ok by lia. rewrite Nat2Z.id. cbn [bind].
  replace (len (repeat zeroIR n)) with (Z.of_nat n) by (unfold len; now rewrite repeat_length).
  rewrite ranges_loop by assumption. cbn [bind]. do 3 f_equal. f_equal. lia.
Qed.

(** ** HasDataAtDate *)
Inductive ichain : Z -> list IntervalData -> Z -> Prop :=
  | ichain_nil a : ichain a [] a
  | ichain_cons d l b : itTicks (idStart d) < itTicks (idEnd d) ->
      ichain (itTicks (idEnd d)) l b -> ichain (itTicks (idStart d)) (d :: l) b.
Inductive rchain : Z -> list IntervalRange -> Z -> Prop :=
  | rchain_nil a : rchain a [] a
  | rchain_cons r l b : ichain (itTicks (irStart r)) (irIntervals r) (itTicks (irEnd r)) ->
      rchain (itTicks (irEnd r)) l b -> rchain (itTicks (irStart r)) (r :: l) b.

Lemma ichain_le a l b : ichain a l b -> a <= b.
Proof. induction 1; lia. Qed.
Lemma rchain_le a l b : rchain a l b -> a <= b.
Proof. induction 1; [lia|]. apply ichain_le in H. lia. Qed.
Lemma ichain_in a l b d : ichain a l b -> In d l -> a <= itTicks (idStart d) /\ itTicks (idEnd d) <= b.
Proof.
  induction 1 as [a|d' l b Hd Hc IH]; intros Hin; [destruct Hin|].
  pose proof (ichain_le Hc). destruct Hin as [<-|Hin]; [lia|]. specialize (IH Hin). lia.
Qed.
Lemma ichain_app a l1 l2 b : ichain a (l1 ++ l2) b <-> exists c, ichain a l1 c /\ ichain c l2 b.
Proof.
  revert a. induction l1 as [|d l1 IH]; intros a; cbn [app].
  - split; [intros H; exists a; split; [constructor|exact H]|]. intros (c & H1 & H2). inversion H1; now subst.
  - split.
    + intros H. inversion H; subst. match goal with H : ichain _ (l1 ++ l2) _ |- _ => apply IH in H as (c & X & Y) end.
      exists c. split; [constructor; auto|auto].
    + intros (c & H1 & H2). inversion H1; subst. constructor; auto. apply IH. eauto.
Qed.
Lemma rchain_ichain a rs b : rchain a rs b -> ichain a (flat_map irIntervals rs) b.
Proof.
  induction 1 as [a|r l b Hr Hc IH]; [constructor|]. cbn [flat_map]. apply ichain_app. eauto.
Qed.
(** an instant of the window is in exactly one interval *)
Lemma ichain_unique a l b u : ichain a l b -> a <= u < b ->
  exists k d, nth_error l k = Some d /\ itTicks (idStart d) <= u < itTicks (idEnd d) /\
    forall k' d', nth_error l k' = Some d' -> itTicks (idStart d') <= u < itTicks (idEnd d') -> k' = k.
Proof.
  induction 1 as [a|d l b Hd Hc IH]; intros Hu; [lia|].
  destruct (Z.lt_ge_cases u (itTicks (idEnd d))) as [Hlt|Hge].
  - exists 0%nat, d. split; [reflexivity|]. split; [lia|]. intros [|k'] d' Hk' Hd'; [reflexivity|].
    cbn in Hk'. apply nth_error_In in Hk'. destruct (ichain_in _ Hc Hk'). lia.
  - destruct IH as (k & d1 & H1 & H2 & H3); [lia|]. exists (S k), d1. split; [exact H1|]. split; [exact H2|].
    intros [|k'] d' Hk' Hd'; cbn in Hk'; [injection Hk' as <-; lia|]. f_equal. eauto.
Qed.
Lemma ichain_find a l b u : ichain a l b -> a <= u < b ->
  forall d, In d l -> itTicks (idStart d) <= u < itTicks (idEnd d) ->
  find (fun d => inTicks u (idStart d) (idEnd d)) l = Some d.
Proof.
  induction 1 as [a|d0 l b Hd Hc IH]; intros Hu d Hin Hdu; [destruct Hin|]. cbn [find].
  unfold inTicks at 1. destruct (Z.leb_spec (itTicks (idStart d0)) u), (Z.ltb_spec u (itTicks (idEnd d0))); cbn [andb]; try lia.
  - destruct Hin as [<-|Hin]; [reflexivity|]. destruct (ichain_in _ Hc Hin). lia.
  - destruct Hin as [<-|Hin]; [lia|]. apply IH; auto. lia.
Qed.

Definition scan (u : Z) : list IntervalRange -> bool :=
  fix scan (rs : list IntervalRange) : bool :=
     match rs with
     | [] => false
     | r :: rs' =>
         if negb (inTicks u (irStart r) (irEnd r)) then scan rs' else
         match find (fun d => inTicks u (idStart d) (idEnd d)) (irIntervals r) with
         | Some d => idHasData d
         | None => scan rs'
         end
     end.
Lemma scan_out a rs b u : rchain a rs b -> u < a \/ b <= u -> scan u rs = false.
Proof.
  induction 1 as [a|r l b Hr Hc IH]; intros Hu; [reflexivity|]. cbn [scan].
  pose proof (ichain_le Hr). pose proof (rchain_le Hc).
  unfold inTicks at 1. destruct (Z.leb_spec (itTicks (irStart r)) u), (Z.ltb_spec u (itTicks (irEnd r))); cbn [andb negb];
    try (apply IH; lia); lia.
Qed.
Lemma scan_in a rs b u d : rchain a rs b -> In d (flat_map irIntervals rs) ->
  itTicks (idStart d) <= u < itTicks (idEnd d) -> scan u rs = idHasData d.
Proof.
  induction 1 as [a|r l b Hr Hc IH]; intros Hin Hu; [destruct Hin|]. cbn [scan flat_map] in *.
  apply in_app_iff in Hin as [Hin|Hin].
  - destruct (ichain_in _ Hr Hin) as [A B]. unfold inTicks at 1.
    replace (itTicks (irStart r) <=? u) with true by (symmetry; apply Z.leb_le; lia).
    replace (u <? itTicks (irEnd r)) with true by (symmetry; apply Z.ltb_lt; lia). cbn [andb negb].
    rewrite (ichain_find (u := u) Hr) with (d := d); auto. lia.
  - destruct (ichain_in _ (rchain_ichain Hc) Hin) as [A B]. unfold inTicks at 1.
    replace (u <? itTicks (irEnd r)) with false by (symmetry; apply Z.ltb_ge; lia). rewrite andb_false_r. cbn [negb].
    now apply IH.
Qed.

Lemma HasData_scan h t : HasDataAtDate h t =
  if (toUnix t <? itTicks (hStart h)) || (toUnix t >? itTicks (hEnd h)) then false else scan (toUnix t) (hRanges h).
Proof. reflexivity. Qed.

(** chains only depend on the times *)
Lemma ichain_flags l l' a b : map unflag l' = map unflag l -> ichain a l b -> ichain a l' b.
Proof.
  revert l' a. induction l as [|d l IH]; intros [|d' l'] a E H; try discriminate; [exact H|].
  injection E as E1 E2 E3. inversion H; subst. rewrite <- E1. constructor.
  - now rewrite E1, E2.
  - rewrite E2. now apply IH.
Qed.
Lemma rchain_flags rs rs' a b :
  Forall2 (fun r r' => irStart r' = irStart r /\ irEnd r' = irEnd r /\
                       map unflag (irIntervals r') = map unflag (irIntervals r)) rs rs' ->
  rchain a rs b -> rchain a rs' b.
Proof.
  intros H. revert a. induction H as [|r r' rs rs' (E1 & E2 & E3) HF IH]; intros a Hc; [exact Hc|].
  inversion Hc; subst. rewrite <- E1. constructor.
  - rewrite E1, E2. eapply ichain_flags; eauto.
  - rewrite E2. now apply IH.
Qed.

Lemma toUnix_add t s k : toUnix (t + k * (s * second)) = toUnix t + k * s.
Proof. unfold toUnix. rewrite Z.mul_assoc. apply Z.div_add. unfold second; lia. Qed.

Lemma tab_chain s0 s k : 0 < s ->
  ichain (toUnix s0) (tab k (interval_at s0 (s * second))) (toUnix s0 + Z.of_nat k * s).
Proof.
  intros Hs. induction k as [|k IH].
  - cbn. rewrite Z.add_0_r. constructor.
  - rewrite tab_S. apply ichain_app. eexists; split; [exact IH|].
    replace (toUnix s0 + Z.of_nat k * s) with (itTicks (idStart (interval_at s0 (s * second) k))).
    2:{ cbn [interval_at idStart CreateIntervalTime itTicks]. now rewrite toUnix_add. }
    constructor; cbn [interval_at idStart idEnd CreateIntervalTime itTicks]; rewrite !toUnix_add; [nia|constructor].
Qed.

Lemma ranges_chain C L s s0 n : 0 < s -> 0 <= L -> 0 <= C -> (forall x, (x < n)%nat -> Z.of_nat x * L <= C) ->
  rchain (toUnix s0) (tab n (range_at C L (s * second) s0)) (toUnix s0 + bnd C L n * s).
Proof.
  intros Hs HL HC. 
  assert (Happ : forall a l1 r b, rchain a l1 (itTicks (irStart r)) -> ichain (itTicks (irStart r)) (irIntervals r) (itTicks (irEnd r)) ->
      b = itTicks (irEnd r) -> rchain a (l1 ++ [r]) b).
  { intros a l1 r b H1 H2 ->. remember (itTicks (irStart r)) as e eqn:Ee. induction H1 as [a|r1 l1 b Hr Hc IH].
    - cbn. subst a. constructor; [exact H2|constructor].
    - cbn. constructor; auto. }
  induction n as [|n IH]; intros Hlow.
  - cbn. unfold bnd. cbn [Z.of_nat]. rewrite Z.mul_0_l, Z.min_l, Z.mul_0_l, Z.add_0_r by lia. constructor.
  - rewrite tab_S. specialize (IH ltac:(intros; apply Hlow; lia)).
    apply Happ; cbn [range_at irStart irEnd irIntervals CreateIntervalTime itTicks].
    + rewrite toUnix_add. exact IH.
    + assert (Hb : bnd C L n <= bnd C L (S n)) by (unfold bnd; nia).
      pose proof (@tab_chain (s0 + bnd C L n * (s * second)) s (Z.to_nat (bnd C L (S n) - bnd C L n)) Hs) as H.
      rewrite Z2Nat.id in H by lia. rewrite toUnix_add in H at 2. rewrite (toUnix_add s0 s (bnd C L (S n))).
      replace (toUnix s0 + bnd C L (S n) * s) with (toUnix s0 + bnd C L n * s + (bnd C L (S n) - bnd C L n) * s) by ring.
      exact H.
    + now rewrite toUnix_add.
Qed.

(** ** The statements *)
Lemma ranges_partition (N : Num) (IL : IntLaws N) now start end_ I limit s0 e0 C :
  set_times start end_ -> start < end_ -> 0 < I -> 0 <= limit < 2 ^ 32 ->
  nearest start I s0 -> nearest end_ I e0 -> e0 = s0 + C * I -> e0 - s0 <= max_dur ->
  C < 2 ^ 50 -> (limit = 0 -> C < 2 ^ 32) ->
  exists h, CalculateCandleDateRanges now start end_ I limit = Ok (inr h) /\
    hStart h = CreateIntervalTime s0 /\ hEnd h = CreateIntervalTime e0 /\
    intervals h = tab (Z.to_nat C) (interval_at s0 I) /\
    Forall range_spans (hRanges h) /\
    (0 < limit -> Forall (fun r => len (irIntervals r) <= limit) (hRanges h)) /\
    (limit = 0 -> length (hRanges h) = 1%nat).
Proof.
  intros Ht Hlt HI Hl Hs He Hw Hm H50 H0.
  destruct (@ranges_spec N IL now start end_ I limit s0 e0 C) as (C0 & L0 & n0 & Hlow & Hhigh & E); auto; try lia.
  eexists; split; [exact E|]. cbn [hStart hEnd hRanges]. do 2 (split; [reflexivity|]).
  set (n := Z.to_nat (the_requests C limit)) in *.
  split; [|split; [|split]].
  - unfold intervals. cbn [hRanges]. rewrite ranges_concat with (n := n) by auto. f_equal. unfold bnd. lia.
  - apply Forall_forall. intros r Hr. unfold tab in Hr. apply in_map_iff in Hr as (x & <- & Hx). apply in_seq in Hx.
    apply range_at_spans with (n := n); auto; lia.
  - intros Hl0. apply Forall_forall. intros r Hr. unfold tab in Hr. apply in_map_iff in Hr as (x & <- & Hx). apply in_seq in Hx.
    assert (EL : the_limit C limit = limit) by (unfold the_limit; destruct (Z.eqb_spec limit 0); lia).
    rewrite EL in *. unfold len. apply range_at_length with (n := n); auto; lia.
  - intros ->. apply tab_length.
Qed.

Lemma ranges_errors (N : Num) now start end_ I limit :
  (~ set_times start end_ -> CalculateCandleDateRanges now start end_ I limit = Ok (inl ErrDateUnset)) /\
  (set_times start end_ -> end_ < start -> CalculateCandleDateRanges now start end_ I limit = Ok (inl ErrStartAfterEnd)) /\
  (set_times start end_ -> end_ = start -> CalculateCandleDateRanges now start end_ I limit = Ok (inl ErrStartEqualsEnd)) /\
  (set_times start end_ -> start < end_ -> I <= 0 -> CalculateCandleDateRanges now start end_ I limit = Ok (inl ErrInvalidInterval)).
Proof.
  unfold CalculateCandleDateRanges, StartEndTimeCheck, set_times.
  destruct (Z.eqb_spec start zero_time); cbn [orb]; [split; [auto|]; repeat split; intros; lia|].
  destruct (Z.eqb_spec start (unix 0)); cbn [orb]; [split; [auto|]; repeat split; intros; lia|].
  destruct (Z.eqb_spec end_ zero_time); cbn [orb]; [split; [auto|]; repeat split; intros; lia|].
  destruct (Z.eqb_spec end_ (unix 0)); cbn [orb]; [split; [auto|]; repeat split; intros; lia|].
  split; [intros H; exfalso; apply H; auto|]. rewrite Z.gtb_ltb.
  split; [|split].
  - intros _ H. replace (end_ <? start) with true by (symmetry; apply Z.ltb_lt; lia). reflexivity.
  - intros _ ->. replace (start <? start) with false by (symmetry; apply Z.ltb_ge; lia). now rewrite Z.eqb_refl.
  - intros _ H HI. replace (end_ <? start) with false by (symmetry; apply Z.ltb_ge; lia).
    replace (start =? end_) with false by (symmetry; apply Z.eqb_neq; lia).
    replace (I <=? 0) with true by (symmetry; apply Z.leb_le; lia). now destruct (start >? now).
Qed.

Lemma has_data_spec (N : Num) (IL : IntLaws N) now start end_ s limit s0 e0 C h h' t :
  set_times start end_ -> start < end_ -> 0 < s -> 0 <= limit < 2 ^ 32 ->
  nearest start (s * second) s0 -> nearest end_ (s * second) e0 -> e0 = s0 + C * (s * second) -> e0 - s0 <= max_dur ->
  C < 2 ^ 50 -> (limit = 0 -> C < 2 ^ 32) ->
  CalculateCandleDateRanges now start end_ (s * second) limit = Ok (inr h) -> same_but_flags h h' ->
  (toUnix s0 <= toUnix t < toUnix e0 ->
     exists k d, nth_error (intervals h') k = Some d /\
       itTicks (idStart d) <= toUnix t < itTicks (idEnd d) /\
       HasDataAtDate h' t = idHasData d /\
       forall k' d', nth_error (intervals h') k' = Some d' ->
         itTicks (idStart d') <= toUnix t < itTicks (idEnd d') -> k' = k) /\
  (toUnix t < toUnix s0 \/ toUnix e0 <= toUnix t -> HasDataAtDate h' t = false).
Proof.
  intros Ht Hlt Hs Hl Hs0 He0 Hw Hm H50 H0 Hh (F1 & F2 & F3).
  assert (HI : 0 < s * second) by (unfold second; lia).
  destruct (@ranges_spec N IL now start end_ (s * second) limit s0 e0 C) as (C0 & L0 & n0 & Hlow & Hhigh & E); auto; try lia.
  rewrite E in Hh. injection Hh as <-. cbn [hStart hEnd hRanges] in *.
  pose proof (@ranges_chain C (the_limit C limit) s s0 _ Hs L0 C0 Hlow) as Hc.
  apply (rchain_flags F3) in Hc.
  replace (toUnix s0 + _ * s) with (toUnix e0) in Hc.
  2:{ rewrite Hw, toUnix_add. unfold bnd. f_equal. f_equal. lia. }
  rewrite HasData_scan, F1, F2. cbn [CreateIntervalTime itTicks]. rewrite Z.gtb_ltb. split.
  - intros Hu. replace (toUnix t <? toUnix s0) with false by (symmetry; apply Z.ltb_ge; lia).
    replace (toUnix e0 <? toUnix t) with false by (symmetry; apply Z.ltb_ge; lia). cbn [orb].
    destruct (ichain_unique (rchain_ichain Hc) Hu) as (k & d & Hk & Hd & Hun).
    exists k, d. split; [exact Hk|]. split; [exact Hd|]. split; [|exact Hun].
    apply (scan_in _ Hc); [eapply nth_error_In; exact Hk|exact Hd].
  - intros Hu. destruct (_ || _); [reflexivity|]. now apply (scan_out Hc).
Qed.

Lemma rounded_window (start end_ interval : Z) : 0 < interval -> start <= end_ ->
  exists s0 C, 0 <= C /\ nearest start interval s0 /\ nearest end_ interval (s0 + C * interval) /\
    forall s1 e1, nearest start interval s1 -> nearest end_ interval e1 -> s1 = s0 /\ e1 = s0 + C * interval.
Proof.
  intros HI Hle. pose proof (tround_nearest start HI) as H1. pose proof (tround_nearest end_ HI) as H2.
  pose proof (nearest_mono HI Hle H1 H2) as Hm.
  destruct H1 as ([a Ha] & H1). destruct H2 as ([b Hb] & H2).
  set (s0 := tround start interval) in *. set (e0 := tround end_ interval) in *.
  assert (E : e0 = s0 + (b - a) * interval) by (rewrite Ha, Hb; ring).
  assert (N1 : nearest start interval s0) by (split; eauto).
  assert (N2 : nearest end_ interval e0) by (split; eauto).
  exists s0, (b - a). rewrite <- E. split; [nia|]. split; [exact N1|]. split; [exact N2|].
  intros s1 e1 G1 G2. split; eapply nearest_unique; eauto.
Qed.
