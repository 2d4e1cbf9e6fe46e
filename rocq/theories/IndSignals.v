(** * IndSignals: what decides each signal. *)
From Verif Require Import Base Num Containers Ta TaTools TaElem Sides Klines KlineProofs3
  IndBase IndTrend IndChannel IndVolume IndOsc IndAll IndTools IndSides SpecInd IndLife IndTimes.
Set Implicit Arguments.

Section Sig.
Context {N : Num}.
Implicit Types I : Indicator (N := N).

Lemma decide_signal b s (B S : Prop) : (b = true <-> B) -> (s = true <-> S) -> signal B S (decide b s).
Proof.
  intros HB HS. unfold decide, signal. destruct b, s; repeat split; intros; try reflexivity; exfalso; intuition congruence.
Qed.
Lemma analyse_signal A B (kl : list B) from (rows : list (row A)) rule sides i v v' s :
  analyse (len kl) from rows rule = Ok sides -> from <= Z.of_nat i ->
  nth_error rows i = Some v -> nth_error rows (pred i) = Some v' -> nth_error sides i = Some s ->
  rule (Z.of_nat i) (rVal v) (rVal v') = Ok s.
Proof.
  intros E Hf Hv Hv' Hs. unfold len in E. apply analyse_inv in E as (_ & _ & H).
  destruct (H _ _ Hv Hf) as (p & s' & P1 & P2 & P3 & P4). congruence.
Qed.
Lemma get_some A (l : list A) i x : nth_error l i = Some x -> get l (Z.of_nat i) = Ok x.
Proof. intros H. apply get_ok_iff. rewrite Nat2Z.id. split; [lia|exact H]. Qed.
Lemma get_some_pred A (l : list A) i x : (1 <= i)%nat -> nth_error l (pred i) = Some x -> get l (Z.of_nat i - 1) = Ok x.
Proof. intros Hi H. replace (Z.of_nat i - 1) with (Z.of_nat (pred i)) by lia. now apply get_some. Qed.
Lemma map_some A B (f : A -> B) l i x : nth_error l i = Some x -> nth_error (map f l) i = Some (f x).
Proof. intros H. now rewrite nth_error_map, H. Qed.

Lemma follows_crossing (I : Indicator) p (b s : Val I -> Val I -> bool) (B S : Candle -> Candle -> Val I -> Val I -> Prop) :
  (exists f, Sides I = Some f /\ forall kl rows, f p kl rows = crossing kl rows b s) ->
  (forall c c' v w, b v w = true <-> B c c' v w) -> (forall c c' v w, s v w = true <-> S c c' v w) ->
  follows I p 1 B S.
Proof.
  intros (f & Hf & HE) HB HS kl rows sides Er Es i c c' v v' sd Hi H1 Hc Hc' Hv Hv' Hs.
  apply sides_inv in Es as (g & rows' & Hg & Er' & Es).
  assert (g = f) by congruence. subst g. assert (rows' = rows) by congruence. subst rows'.
  rewrite HE in Es. unfold crossing in Es. eapply analyse_signal in Es; [|exact Hi|exact Hv|exact Hv'|exact Hs].
  injection Es as <-. now apply decide_signal.
Qed.
Lemma follows_own (I : Indicator) p (b s : Val I -> Val I -> bool) (B S : Candle -> Candle -> Val I -> Val I -> Prop) :
  (exists f, Sides I = Some f /\ forall kl rows, f p kl rows = analyse (len rows) 1 rows (fun _ v w => Ok (decide (b v w) (s v w)))) ->
  (forall c c' v w, b v w = true <-> B c c' v w) -> (forall c c' v w, s v w = true <-> S c c' v w) ->
  follows I p 1 B S.
Proof.
  intros (f & Hf & HE) HB HS kl rows sides Er Es i c c' v v' sd Hi H1 Hc Hc' Hv Hv' Hs.
  apply sides_inv in Es as (g & rows' & Hg & Er' & Es).
  assert (g = f) by congruence. subst g. assert (rows' = rows) by congruence. subst rows'.
  rewrite HE in Es. eapply analyse_signal in Es; [|exact Hi|exact Hv|exact Hv'|exact Hs].
  injection Es as <-. now apply decide_signal.
Qed.
Lemma follows_price (I : Indicator) p from (b s : F -> F -> Val I -> Val I -> bool) (B S : Candle -> Candle -> Val I -> Val I -> Prop) :
  (exists f, Sides I = Some f /\ forall kl rows, f p kl rows =
     (o <- GetOHLC kl ;;
      analyse (len kl) from rows (fun i v w =>
        price <- get (oClose o) i ;;
        prevPrice <- get (oClose o) (i - 1) ;;
        Ok (decide (b price prevPrice v w) (s price prevPrice v w))))) ->
  (forall c c' v w, b (cClose c) (cClose c') v w = true <-> B c c' v w) ->
  (forall c c' v w, s (cClose c) (cClose c') v w = true <-> S c c' v w) ->
  follows I p from B S.
Proof.
  intros (f & Hf & HE) HB HS kl rows sides Er Es i c c' v v' sd Hi H1 Hc Hc' Hv Hv' Hs.
  apply sides_inv in Es as (g & rows' & Hg & Er' & Es).
  assert (g = f) by congruence. subst g. assert (rows' = rows) by congruence. subst rows'.
  rewrite HE in Es. rewrite GetOHLC_spec in Es. cbn [bind oClose] in Es.
  eapply analyse_signal in Es; [|exact Hi|exact Hv|exact Hv'|exact Hs].
  rewrite (get_some _ _ (map_some cClose _ _ Hc)) in Es. cbn [bind] in Es.
  rewrite (get_some_pred _ H1 (map_some cClose _ _ Hc')) in Es. cbn [bind] in Es.
  injection Es as <-. now apply decide_signal.
Qed.

(** ** EMAVegas *)
Lemma vegas_cross_spec (data : list (row VegasV)) i t d : 11 <= Z.of_nat i -> vegas_cross data (Z.of_nat i) = Ok (t, d) ->
  (t = true <-> exists k v w, (i - 10 <= k < i)%nat /\ nth_error data k = Some v /\ nth_error data (pred k) = Some w /\
     gS2 (rVal v) >~ gL2 (rVal v) = true /\ gS2 (rVal w) <~ gL2 (rVal w) = true) /\
  (d = true <-> exists k v w, (i - 10 <= k < i)%nat /\ nth_error data k = Some v /\ nth_error data (pred k) = Some w /\
     gS2 (rVal v) <~ gL2 (rVal v) = true /\ gS2 (rVal w) >~ gL2 (rVal w) = true).
Proof.
  intros Hi E. unfold vegas_cross in E.
  apply (@for_inv_ok _ (fun j q =>
    (fst q = true <-> exists k v w, (i - 10 <= k)%nat /\ Z.of_nat k < j /\ nth_error data k = Some v /\ nth_error data (pred k) = Some w /\
     gS2 (rVal v) >~ gL2 (rVal v) = true /\ gS2 (rVal w) <~ gL2 (rVal w) = true) /\
    (snd q = true <-> exists k v w, (i - 10 <= k)%nat /\ Z.of_nat k < j /\ nth_error data k = Some v /\ nth_error data (pred k) = Some w /\
     gS2 (rVal v) <~ gL2 (rVal v) = true /\ gS2 (rVal w) >~ gL2 (rVal w) = true))) in E.
  - cbn [fst snd] in E. destruct E as [E1 E2]. rewrite E1, E2. split; split;
      intros (k & v & w & H); exists k, v, w; intuition lia.
  - lia.
  - cbn. split; (split; [discriminate|intros (k & v & w & H1 & H2 & _); lia]).
  - intros j [a b] [a' b'] Hj [Ha Hb] Ej. cbn [fst snd] in *.
    apply bind_ok in Ej as (v & Ev & Ej). apply bind_ok in Ej as (w & Ew & Ej). cbn zeta in Ej.
    injection Ej as <- <-.
    apply get_ok_iff in Ev as [_ Ev]. apply get_ok_iff in Ew as [_ Ew].
    replace (Z.to_nat (j - 1)) with (pred (Z.to_nat j)) in Ew by lia.
    assert (X : forall (P : VegasV -> VegasV -> bool) (a : bool),
      (a = true <-> exists k v w, (i - 10 <= k)%nat /\ Z.of_nat k < j /\ nth_error data k = Some v /\ nth_error data (pred k) = Some w /\ P (rVal v) (rVal w) = true) ->
      ((if P (rVal v) (rVal w) then true else a) = true <->
       exists k v w, (i - 10 <= k)%nat /\ Z.of_nat k < j + 1 /\ nth_error data k = Some v /\ nth_error data (pred k) = Some w /\ P (rVal v) (rVal w) = true)).
    { intros P a0 H0. split.
      - destruct (P (rVal v) (rVal w)) eqn:EP.
        + intros _. exists (Z.to_nat j), v, w. repeat split; auto; lia.
        + intros Ha0. apply H0 in Ha0 as (k & v0 & w0 & K1 & K2 & K3). exists k, v0, w0. intuition lia.
      - intros (k & v0 & w0 & K1 & K2 & K3 & K4 & K5). destruct (P (rVal v) (rVal w)) eqn:EP; [reflexivity|].
        apply H0. destruct (Nat.eq_dec k (Z.to_nat j)) as [->|Hne]; [congruence|].
        exists k, v0, w0. repeat split; auto; lia. }
    split.
    + specialize (X (fun v w => (gS2 v >~ gL2 v) && (gS2 w <~ gL2 w)) a). cbn beta in X.
      setoid_rewrite andb_true_iff in X. apply X. exact Ha.
    + specialize (X (fun v w => (gS2 v <~ gL2 v) && (gS2 w >~ gL2 w)) b). cbn beta in X.
      setoid_rewrite andb_true_iff in X. apply X. exact Hb.
Qed.
Lemma vegas_inv (kl : list Candle) (rows : list (row VegasV)) sides : length rows = length kl -> vegas_sides kl rows = Ok sides ->
  forall i, (i < length kl)%nat ->
    (Z.of_nat i < 11 -> nth_error sides i = Some Buy) /\
    (11 <= Z.of_nat i -> forall c v s, nth_error kl i = Some c -> nth_error rows i = Some v -> nth_error sides i = Some s ->
       exists t d, vegas_cross rows (Z.of_nat i) = Ok (t, d) /\
         s = decide (vegas_up (rVal v) && cBull c && t) (vegas_dn (rVal v) && negb (cBull c) && d)).
Proof.
  intros Hl E. unfold vegas_sides in E. rewrite GetOHLC_spec in E. cbn [bind oBull] in E.
  rewrite make_len in E. cbn [bind] in E. rewrite map_length in E.
  apply (@for_inv_ok _ (fun j q => length q = length kl /\
    (forall i, (i < length kl)%nat -> Z.of_nat i < 11 \/ j <= Z.of_nat i -> nth_error q i = Some Buy) /\
    forall i, (i < length kl)%nat -> Z.of_nat i < j -> 11 <= Z.of_nat i -> forall c v s, nth_error kl i = Some c -> nth_error rows i = Some v -> nth_error q i = Some s ->
       exists t d, vegas_cross rows (Z.of_nat i) = Ok (t, d) /\
         s = decide (vegas_up (rVal v) && cBull c && t) (vegas_dn (rVal v) && negb (cBull c) && d))) in E.
  - destruct E as (_ & E1 & E2). intros i Hi. split; [intros; apply E1; auto; lia|].
    intros H11. apply E2; auto. unfold len. lia.
  - apply len_nonneg.
  - rewrite repeat_length. split; [reflexivity|]. split; [|intros; lia].
    intros i Hi _. rewrite nth_error_nth' with (d := Buy) by (rewrite repeat_length; lia). f_equal. apply nth_repeat_lt. lia.
  - intros j q q' Hj (Hq & H1 & H2) Ej. destruct (Z.ltb_spec j 1).
    { injection Ej as <-. split; [exact Hq|]. split; [intros; apply H1; auto; lia|intros; eapply H2; eauto; lia]. }
    apply bind_ok in Ej as (v & Ev & Ej). destruct (Z.ltb_spec (j - 10 - 1) 0).
    { injection Ej as <-. split; [exact Hq|]. split; [intros; apply H1; auto; lia|intros; eapply H2; eauto; lia]. }
    apply bind_ok in Ej as ([t d] & Et & Ej). apply bind_ok in Ej as (bl & Eb & Ej).
    apply set_inv in Ej as [Hr ->]. rewrite upd_length. split; [exact Hq|]. unfold len in *. split.
    + intros i Hi Hc. rewrite nth_error_upd_ne by lia. apply H1; auto; lia.
    + intros i Hi Hij H11 c v' s Hc Hv' Hs. destruct (Nat.eq_dec i (Z.to_nat j)) as [->|Hne].
      * rewrite nth_error_upd_eq in Hs by lia. injection Hs as <-. rewrite Z2Nat.id by lia.
        apply get_ok_iff in Ev as [_ Ev]. apply get_ok_iff in Eb as [_ Eb]. rewrite (map_some cBull _ _ Hc) in Eb.
        exists t, d. split; [exact Et|]. congruence.
      * rewrite nth_error_upd_ne in Hs by lia. eapply H2; eauto. lia.
Qed.

Lemma vegas_rule (p : VegasP) (kl : list Candle) (rows : list (row VegasV)) (s : list Side) (i : nat) (c : Candle) (v : row VegasV) (d : Side) :
  rows_of I_EMAVegas p kl = Ok rows -> sides_of I_EMAVegas p kl = Ok s -> (11 <= i)%nat ->
  nth_error kl i = Some c -> nth_error rows i = Some v -> nth_error s i = Some d ->
  let g := rVal v in
  let crossed (R : VegasV -> Prop) (R' : VegasV -> Prop) := exists k x y, (i - 10 <= k < i)%nat /\
    nth_error rows k = Some x /\ nth_error rows (pred k) = Some y /\ R (rVal x) /\ R' (rVal y) in
  signal
    (gV g >~ gS1 g = true /\ gS1 g >~ gL1 g = true /\ gS1 g >~ gL2 g = true /\ gS2 g >~ gL1 g = true /\ gS2 g >~ gL2 g = true /\ cBull c = true /\
     crossed (fun x => gS2 x >~ gL2 x = true) (fun y => gS2 y <~ gL2 y = true))
    (gV g <~ gS1 g = true /\ gS1 g <~ gL1 g = true /\ gS1 g <~ gL2 g = true /\ gS2 g <~ gL1 g = true /\ gS2 g <~ gL2 g = true /\ cBull c = false /\
     crossed (fun x => gS2 x <~ gL2 x = true) (fun y => gS2 y >~ gL2 y = true)) d.
Proof.
  intros Er Es Hi Hc Hv Hd g crossed.
  apply (@sides_inv N I_EMAVegas) in Es as (f & rows' & Hs & Er' & Ef). cbn in Hs. injection Hs as <-.
  assert (rows' = rows) by congruence. subst rows'.
  assert (Hl : length rows = length kl) by (apply (@rows_one N I_EMAVegas p); [right; cbn; tauto|discriminate|exact Er]).
  apply vegas_inv with (i := i) in Ef; [|exact Hl|apply nth_error_Some; congruence].
  destruct Ef as [_ Ef]. destruct (Ef ltac:(lia) _ _ _ Hc Hv Hd) as (t & q & Ec & ->).
  apply vegas_cross_spec in Ec as [C1 C2]; [|lia].
  apply decide_signal; unfold vegas_up, vegas_dn; rewrite !andb_true_iff, ?negb_true_iff; fold g.
  - rewrite C1. unfold crossed. tauto.
  - rewrite C2. unfold crossed. tauto.
Qed.

(** ** Camarilla *)
(** the daily levels in force at row i: those of the latest row up to i whose
    calendar day is among the days, the first such day *)
Fixpoint cam_level (same : Z -> Z -> bool) (days rows : list (row CamV)) (i : nat) : option CamV :=
  match nth_error rows i with
  | None => None
  | Some r =>
    match find (fun d => same (rTime d) (rTime r)) days with
    | Some d => Some (rVal d)
    | None => match i with O => None | S j => cam_level same days rows j end
    end
  end.
Lemma cam_inv p (kl : list Candle) (rows : list (row CamV)) sides : length rows = length kl -> cam_sides p kl rows = Ok sides ->
  exists days, cam_calc0 (camEMA p) (camDaily p) = Ok days /\
  forall i c v s, nth_error kl i = Some c -> nth_error rows i = Some v -> nth_error sides i = Some s ->
    s = match cam_level (camSameDay p) days rows i with
        | None => Hold
        | Some l => decide ((cClose c <~ caEMA (rVal v)) && (cClose c >~ caH4 l) && (cOpen c <~ caH4 l))
                           ((cClose c >~ caEMA (rVal v)) && (cClose c <~ caH4 l) && (cOpen c >~ caH4 l))
        end.
Proof.
  intros Hl E. unfold cam_sides in E. rewrite make_len in E. cbn [bind] in E.
  apply bind_ok in E as (days & Ed & E). rewrite GetOHLC_spec in E. cbn [bind oClose oOpen] in E.
  apply bind_ok in E as ([sec q] & E & Eq). injection Eq as <-. exists days. split; [exact Ed|].
  unfold range_ in E.
  apply (@for_inv_ok _ (fun j st => length (snd st) = length kl /\
    fst st = (if j =? 0 then None else cam_level (camSameDay p) days rows (Z.to_nat (j - 1))) /\
    forall i c v s, Z.of_nat i < j -> nth_error kl i = Some c -> nth_error rows i = Some v -> nth_error (snd st) i = Some s ->
    s = match cam_level (camSameDay p) days rows i with
        | None => Hold
        | Some l => decide ((cClose c <~ caEMA (rVal v)) && (cClose c >~ caH4 l) && (cOpen c <~ caH4 l))
                           ((cClose c >~ caEMA (rVal v)) && (cClose c <~ caH4 l) && (cOpen c >~ caH4 l))
        end)) in E.
  - destruct E as (_ & _ & E). intros i c v s Hc Hv Hs. apply (E i c v s); auto.
    assert (i < length rows)%nat by (apply nth_error_Some; congruence). unfold len. lia.
  - apply len_nonneg.
  - cbn [fst snd]. rewrite repeat_length. repeat split. intros; lia.
  - intros j [sc sd] [sc' sd'] Hj (L & HS & H) Ej. cbn [fst snd] in *.
    apply bind_ok in Ej as (r & Er & Ej). cbn zeta in Ej.
    apply bind_ok in Ej as (cl & Ec & Ej). apply bind_ok in Ej as (op & Eo & Ej). apply bind_ok in Ej as (sd2 & Es & Ej).
    injection Ej as <- <-. pose proof (set_length _ _ _ Es). apply set_inv in Es as [Hr ->].
    apply get_ok_iff in Er as [_ Er]. apply get_ok_iff in Ec as [_ Ec]. apply get_ok_iff in Eo as [_ Eo].
    assert (LV : cam_find (camSameDay p) (rTime r) days sc = cam_level (camSameDay p) days rows (Z.to_nat j)).
    { unfold cam_find. destruct (Z.to_nat j) as [|k] eqn:Ek; cbn [cam_level]; rewrite Er.
      - replace j with 0 in HS by lia. cbn in HS. subst sc. reflexivity.
      - replace (j =? 0) with false in HS by lia. replace (Z.to_nat (j - 1)) with k in HS by lia. now subst sc. }
    split; [congruence|]. split.
    + replace (j + 1 =? 0) with false by lia. rewrite LV. do 2 f_equal. lia.
    + intros i c v s Hi Hc Hv Hs. unfold len in *. destruct (Nat.eq_dec i (Z.to_nat j)) as [->|Hne].
      * rewrite nth_error_upd_eq in Hs by lia. injection Hs as <-. rewrite LV.
        rewrite (map_some cClose _ _ Hc) in Ec. rewrite (map_some cOpen _ _ Hc) in Eo.
        injection Ec as <-. injection Eo as <-. assert (r = v) by congruence. subst r.
        destruct (cam_level (camSameDay p) days rows (Z.to_nat j)); reflexivity.
      * rewrite nth_error_upd_ne in Hs by lia. apply (H i c v s); auto. lia.
Qed.

Lemma find_first A (f : A -> bool) l x : find f l = Some x ->
  exists k, nth_error l k = Some x /\ f x = true /\ forall k' y, (k' < k)%nat -> nth_error l k' = Some y -> f y = false.
Proof.
  induction l as [|a l IH]; [discriminate|]. cbn. destruct (f a) eqn:E.
  - intros [= <-]. exists 0%nat. split; [reflexivity|]. split; [exact E|]. intros; lia.
  - intros H. apply IH in H as (k & H1 & H2 & H3). exists (S k). split; [exact H1|]. split; [exact H2|].
    intros [|k'] y Hk Hy; [cbn in Hy; congruence|]. apply (H3 k'); [lia|exact Hy].
Qed.
Lemma cam_level_spec same days rows i : (i < length rows)%nat ->
  match cam_level same days rows i with
  | None => forall j x y, (j <= i)%nat -> nth_error rows j = Some x -> In y days -> same (rTime y) (rTime x) = false
  | Some l => exists j x k y, (j <= i)%nat /\ nth_error rows j = Some x /\ nth_error days k = Some y /\ rVal y = l /\
       same (rTime y) (rTime x) = true /\
       (forall k' y', (k' < k)%nat -> nth_error days k' = Some y' -> same (rTime y') (rTime x) = false) /\
       (forall j' x' y', (j < j' <= i)%nat -> nth_error rows j' = Some x' -> In y' days -> same (rTime y') (rTime x') = false)
  end.
Proof.
  induction i as [|i IH]; intros Hi; cbn [cam_level].
  - destruct (nth_error rows 0) as [r|] eqn:Er; [|apply nth_error_None in Er; lia].
    destruct (find (fun d => same (rTime d) (rTime r)) days) as [d|] eqn:Ed.
    + apply find_first in Ed as (k & K1 & K2 & K3). exists 0%nat, r, k, d. repeat split; auto. intros; lia.
    + intros j x y Hj Hx Hy. replace j with 0%nat in Hx by lia. assert (x = r) by congruence. subst x.
      exact (find_none _ _ Ed y Hy).
  - destruct (nth_error rows (S i)) as [r|] eqn:Er; [|apply nth_error_None in Er; lia].
    destruct (find (fun d => same (rTime d) (rTime r)) days) as [d|] eqn:Ed.
    + apply find_first in Ed as (k & K1 & K2 & K3). exists (S i), r, k, d. repeat split; auto. intros; lia.
    + specialize (IH ltac:(lia)). pose proof (find_none _ _ Ed) as HN. destruct (cam_level same days rows i) as [l|].
      * destruct IH as (j & x & k & y & J1 & J2 & J3 & J4 & J5 & J6 & J7). exists j, x, k, y. repeat split; auto.
        intros j' x' y' Hj' Hx' Hy'. destruct (Nat.eq_dec j' (S i)) as [->|]; [|apply (J7 j'); auto; lia].
        assert (x' = r) by congruence. subst x'. exact (HN y' Hy').
      * intros j x y Hj Hx Hy. destruct (Nat.eq_dec j (S i)) as [->|]; [|apply (IH j); auto; lia].
        assert (x = r) by congruence. subst x. exact (HN y Hy).
Qed.
Lemma cam_rule (p : CamP) (kl : list Candle) (rows : list (row CamV)) (s : list Side) :
  rows_of I_Camarilla p kl = Ok rows -> sides_of I_Camarilla p kl = Ok s ->
  exists days, rows_of I_Camarilla p (camDaily p) = Ok days /\
  forall i c v d, nth_error kl i = Some c -> nth_error rows i = Some v -> nth_error s i = Some d ->
    ((forall j x y, (j <= i)%nat -> nth_error rows j = Some x -> In y days -> camSameDay p (rTime y) (rTime x) = false) /\ d = Hold) \/
    (exists j x k y, (j <= i)%nat /\ nth_error rows j = Some x /\ nth_error days k = Some y /\
       camSameDay p (rTime y) (rTime x) = true /\
       (forall k' y', (k' < k)%nat -> nth_error days k' = Some y' -> camSameDay p (rTime y') (rTime x) = false) /\
       (forall j' x' y', (j < j' <= i)%nat -> nth_error rows j' = Some x' -> In y' days -> camSameDay p (rTime y') (rTime x') = false) /\
       signal (cClose c <~ caEMA (rVal v) = true /\ cClose c >~ caH4 (rVal y) = true /\ cOpen c <~ caH4 (rVal y) = true)
              (cClose c >~ caEMA (rVal v) = true /\ cClose c <~ caH4 (rVal y) = true /\ cOpen c >~ caH4 (rVal y) = true) d).
Proof.
  intros Er Es. apply (@sides_inv N I_Camarilla) in Es as (f & rows' & Hs & Er' & Ef). cbn in Hs. injection Hs as <-.
  assert (rows' = rows) by congruence. subst rows'.
  assert (Hl : length rows = length kl) by (apply (@rows_one N I_Camarilla p); [right; cbn; tauto|discriminate|exact Er]).
  apply cam_inv in Ef as (days & Ed & H); [|exact Hl]. exists days. split; [exact Ed|].
  intros i c v d Hc Hv Hd. rewrite (H _ _ _ _ Hc Hv Hd).
  assert (Hi : (i < length rows)%nat) by (apply nth_error_Some; congruence).
  pose proof (cam_level_spec (camSameDay p) days rows Hi) as L.
  destruct (cam_level (camSameDay p) days rows i) as [l|]; [right|left; split; [exact L|reflexivity]].
  destruct L as (j & x & k & y & J1 & J2 & J3 & J4 & J5 & J6 & J7). exists j, x, k, y.
  do 6 (split; [assumption|]). subst l. apply decide_signal; rewrite !andb_true_iff; tauto.
Qed.

(** ** TraderXO *)
Lemma traderxo_first p kl s : sides_of I_TraderXO p kl = Ok s -> kl <> [] -> nth_error s 0 = Some Hold.
Proof.
  intros E Hk. apply (@sides_inv N I_TraderXO) in E as (f & rows & Hs & Er & Ef). cbn in Hs. injection Hs as <-.
  apply (@rows_one N I_TraderXO) in Er; [|right; cbn; tauto|discriminate].
  unfold traderxo_sides in Ef. rewrite !make_len in Ef. cbn [bind] in Ef.
  apply bind_ok in Ef as (st & E & Ef). injection Ef as <-. cbn [Val I_TraderXO] in *.
  assert (0 < Z.of_nat (length rows)) by (rewrite Er; destruct kl; [congruence|cbn [length]; lia]).
  apply (@for_inv_ok _ (fun j q => j <= 0 \/ nth_error (xsides q) 0 = Some Hold)) in E;
    [destruct E as [E|E]; [unfold len in E; lia|exact E]|unfold len; lia|lia|].
  intros j q q' Hj IH Ej. destruct (Z.ltb_spec j 1).
  - apply bind_ok in Ej as (sd & Es & Ej). injection Ej as <-. cbn [xsides]. apply set_inv in Es as [Hr ->]. right.
    replace (Z.to_nat j) with 0%nat by lia. apply nth_error_upd_eq. unfold len in Hr. lia.
  - apply bind_ok in Ej as (r & _ & Ej). cbn zeta in Ej.
    do 2 (apply bind_ok in Ej as (? & _ & Ej)). do 2 (apply bind_ok in Ej as (? & _ & Ej)).
    apply bind_ok in Ej as (sd & Es & Ej). injection Ej as <-. cbn [xsides]. apply set_inv in Es as [Hr ->]. right.
    rewrite nth_error_upd_ne by lia. destruct IH as [IH|IH]; [lia|exact IH].
Qed.

(** ** Bars before the first evaluated one *)
Definition skips_first I : Prop :=
  In I [I_Rsi; I_StochRsi; I_Macd; I_Kdj; I_Cci; I_AiCoinCCI; I_StochasticHeat; I_SuperTrend; I_PPST; I_UTBot;
        I_EMAVegas; I_Boll; I_Donchian; I_Keltner; I_MFI; I_APO; I_AO; I_Chaikin; I_PPO; I_Projection;
        I_Stoch; I_Williams].
Lemma analyse_first A (kl : list Candle) from (rows : list (row A)) rule sides k : analyse (len kl) from rows rule = Ok sides ->
  Z.of_nat k < from -> (k < length kl)%nat -> nth_error sides k = Some Buy.
Proof. intros E Hk Hl. unfold len in E. apply analyse_inv in E as (_ & H & _). apply H; auto. Qed.
Lemma analyse_first' A (rows : list (row A)) rule sides : analyse (len rows) 1 rows rule = Ok sides ->
  rows <> [] -> nth_error sides 0 = Some Buy.
Proof.
  intros E Hk. unfold len in E. apply analyse_inv in E as (_ & H & _). apply H; [|lia].
  destruct rows; [congruence|cbn; lia].
Qed.
Lemma first_is_buy I p kl sides : skips_first I -> kl <> [] -> fits I (length kl) -> sides_of I p kl = Ok sides ->
  nth_error sides 0 = Some Buy.
Proof.
  intros HI Hk Hf E. pose proof (sides_inv _ _ _ E) as (f & rows & Hs & Er & Ef).
  assert (L0 : (0 < length kl)%nat) by (destruct kl; [congruence|cbn; lia]).
  unfold skips_first in HI. cbn [In] in HI.
  assert (R : (rows = [] -> regular I -> False)).
  { intros -> HR. apply rows_one in Er; auto. cbn in Er. lia. }
  unfold regular, append_style, make_style in R. cbn [In] in R.
  repeat (destruct HI as [<-|HI]); try (destruct HI); cbn in Hs; injection Hs as <-;
  try (eapply analyse_first; [exact Ef|lia|exact L0]; fail);
  try (eapply analyse_first'; [exact Ef|]; intros ->; apply R; tauto; fail);
  try (unfold boll_sides, middle_sides, price_crossing in Ef; rewrite GetOHLC_spec in Ef; cbn [bind] in Ef;
       eapply analyse_first; [exact Ef|lia|exact L0]; fail).
  cbn [Val I_EMAVegas] in *. eapply vegas_inv in Ef; [|eapply (@rows_one N I_EMAVegas); [right; cbn; tauto|exact Hf|exact Er]|exact L0].
  apply Ef. cbn. lia.
Qed.
End Sig.
