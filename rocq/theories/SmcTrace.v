(** * SmcTrace: SmartMoneyConcepts.Calculation draws exactly the breaks SpecSmc2 describes. *)
From Coq Require Import Classical_Prop.
From Verif Require Import Base Num Containers Ta Klines IndBase Order OrderMore TaTools TaElem TaRange SpecTa TaOrd Smc SpecSmc SmcProofs SpecSmc2.
Set Implicit Arguments.
Open Scope Z_scope.

Lemma last_below (P : nat -> Prop) k : (exists j, (j < k)%nat /\ P j) -> exists j, (j < k)%nat /\ P j /\ forall j', (j < j' < k)%nat -> ~ P j'.
Proof.
  induction k as [|k IH]; intros (j & Hj & Pj); [lia|]. destruct (classic (P k)) as [Pk|Pk].
  - exists k. split; [lia|]. split; [exact Pk|]. intros; lia.
  - destruct IH as (j0 & H0 & P0 & Q0). { exists j. split; [|exact Pj]. destruct (Nat.eq_dec j k) as [->|]; [contradiction|lia]. }
    exists j0. split; [lia|]. split; [exact P0|]. intros j' Hj'. destruct (Nat.eq_dec j' k) as [->|]; [exact Pk|]. apply Q0. lia.
Qed.

Section Trace.
Context {N : Num} (O : OrdLaws N).
Local Notation fl := (list F).
Variables (p : SmcP) (oh : OHLC) (atr : fl) (n sw : nat).
Hypothesis Sh : shaped oh n.
Hypothesis La : length atr = n.
Hypothesis Hsw : SwingLenght p = Z.of_nat sw.
Hypothesis Hsw1 : (1 <= sw)%nat.
Local Notation hs := (oHigh oh).
Local Notation ls := (oLow oh).
Local Notation cs := (oClose oh).
Hypothesis Ph : Forall (fun x => (fzero <~ x) = true) hs.
Hypothesis Pl : Forall (fun x => (fzero <~ x) = true) ls.
Hypothesis Pc : Forall (fun x => (x <~ fzero) = false) cs.

Local Notation span := (span sw).
Local Notation start := (start sw).
Local Notation swing := (swing hs ls sw).
Local Notation found := (found hs ls sw).
Local Notation turn := (turn hs ls sw).
Local Notation price := (price hs ls).
Local Notation latest := (latest hs ls sw).
Local Notation crosses := (crosses cs).
Local Notation passes := (passes hs ls cs sw).
Local Notation breaks := (breaks hs ls cs sw).
Local Notation against := (against hs ls cs sw).
Local Notation short_rising := (short_rising hs ls cs sw).
Local Notation shown := (shown hs ls).

Lemma start_sw : start = sw.
Proof. unfold SpecSmc2.start. lia. Qed.
Lemma span_pos sc : (1 <= span sc)%nat.
Proof. destruct sc; cbn; lia. Qed.
Lemma pos_h k : (k < n)%nat -> (fzero <~ nth k hs fzero) = true.
Proof. intros H. destruct Sh as (_ & S2 & _). rewrite Forall_forall in Ph. apply Ph, nth_In. lia. Qed.
Lemma pos_l k : (k < n)%nat -> (fzero <~ nth k ls fzero) = true.
Proof. intros H. destruct Sh as (_ & _ & S3 & _). rewrite Forall_forall in Pl. apply Pl, nth_In. lia. Qed.
Lemma pos_nn x : (fzero <~ x) = true -> nn x.
Proof. intros H. now apply (lt_nn O) in H. Qed.
Lemma pos_neq x : (fzero <~ x) = true -> (x ==~ fzero) = false /\ (fzero ==~ x) = false.
Proof.
  intros H. destruct (@lt_nn N O _ _ H) as [H1 H2]. rewrite !(ol_eq O) by assumption. rewrite H, (@ol_asym N O _ _ H1 H2 H). now cbn.
Qed.
Lemma swing_bound hi sc k : swing hi sc k -> (k + span sc < n)%nat.
Proof. destruct Sh as (_ & S2 & S3 & _). unfold SpecSmc2.swing. destruct hi; [intros [H _]|intros [[H _] _]]; lia. Qed.
Lemma price_pos hi k : (k < n)%nat -> (fzero <~ price hi k) = true.
Proof. unfold SpecSmc2.price. destruct hi; [apply pos_h|apply pos_l]. Qed.

(** ** the direction the last swing point went *)
Definition LL (sc : scale) (i : nat) : Prop :=
  exists k2, (k2 + span sc < i)%nat /\ found false sc k2 /\ forall k3, (k2 < k3)%nat -> (k3 + span sc < i)%nat -> ~ swing true sc k3.
Definition OS (sc : scale) (os : Z) (i : nat) : Prop := os = 1 /\ LL sc i \/ os = 0 /\ ~ LL sc i.

Lemma swing_excl sc k : swing true sc k -> swing false sc k -> False.
Proof. unfold SpecSmc2.swing. tauto. Qed.
Lemma turn_high sc k : found true sc k -> (turn true sc k <-> LL sc (k + span sc)).
Proof.
  intros F. unfold SpecSmc2.turn. cbn [negb]. split.
  - intros (_ & H1 & H2). destruct (last_below (found false sc) (H2 eq_refl)) as (k2 & H3 & H4 & H5).
    exists k2. split; [lia|]. split; [exact H4|]. intros k3 Hk Hk' Hs.
    destruct (H1 k3) as (k4 & H6 & H7); [lia|split; [destruct H4; lia|exact Hs]|]. apply (H5 k4); [lia|exact H7].
  - intros (k2 & H1 & H2 & H3). split; [exact F|]. split.
    + intros k1 Hk F1. exists k2. split; [|exact H2].
      destruct (Nat.lt_trichotomy k1 k2) as [|[->|]]; [lia| |].
      * exfalso. destruct F1, H2. eapply swing_excl; eassumption.
      * exfalso. apply (H3 k1); [lia|lia|apply F1].
    + intros _. exists k2. split; [lia|exact H2].
Qed.
Lemma turn_low sc k : found false sc k -> (turn false sc k <-> ~ LL sc (k + span sc)).
Proof.
  intros F. unfold SpecSmc2.turn. cbn [negb]. split.
  - intros (_ & H1 & _) (k2 & H2 & H3 & H4). destruct (H1 k2) as (k3 & H5 & H6); [lia|exact H3|]. apply (H4 k3); [lia|lia|apply H6].
  - intros H. split; [exact F|]. split; [|discriminate]. intros k1 Hk F1. apply NNPP. intros C. apply H. exists k1. split; [lia|]. split; [exact F1|].
    intros k3 H3 H4 H5. apply C. exists k3. split; [lia|]. split; [destruct F1; lia|exact H5].
Qed.
Lemma LL_step sc i : (start <= i)%nat ->
  (LL sc (S i) <-> ((span sc <= i)%nat /\ swing false sc (i - span sc)) \/ LL sc i /\ ~ ((span sc <= i)%nat /\ swing true sc (i - span sc))).
Proof.
  intros Hi. split.
  - intros (k2 & H1 & H2 & H3). destruct (Nat.eq_dec (k2 + span sc) i) as [E|E].
    + left. split; [lia|]. replace (i - span sc)%nat with k2 by lia. apply H2.
    + right. split.
      * exists k2. split; [lia|]. split; [exact H2|]. intros k3 Hk Hk'. apply H3; lia.
      * intros [Hs Hw]. apply (H3 (i - span sc)%nat); [lia|lia|exact Hw].
  - intros [[H1 H2]|[(k2 & H1 & H2 & H3) H4]].
    + exists (i - span sc)%nat. split; [lia|]. split; [split; [lia|exact H2]|]. intros; lia.
    + exists k2. split; [lia|]. split; [exact H2|]. intros k3 Hk Hk' Hs. destruct (Nat.eq_dec (k3 + span sc) i) as [E|E].
      * apply H4. split; [lia|]. now replace (i - span sc)%nat with k3 by lia.
      * apply (H3 k3); [lia|lia|exact Hs].
Qed.

(** Highest and Lowest return one of the values *)
Lemma Highest_in (xs : fl) m u : 1 <= m -> xs <> [] -> Highest xs m = Ok u -> exists k, 0 <= k < Z.min m (len xs) /\ u = nth (Z.to_nat (len xs - 1 - k)) xs fzero.
Proof.
  intros Hm Hne. assert (Hl : 0 < len xs) by (destruct xs; [congruence|rewrite len_cons; pose proof (len_nonneg xs); lia]).
  unfold Highest. rewrite (@get_nth _ xs (len xs - 1) fzero) by lia. cbn [bind].
  destruct (@for_inv _ (fun i r => exists k, 0 <= k < Z.min m (len xs) /\ r = nth (Z.to_nat (len xs - 1 - k)) xs fzero)
    0 (Z.min m (len xs)) (fun k result => v <- get xs (len xs - 1 - k) ;; Ok (if result <~ v then v else result)) (nth (Z.to_nat (len xs - 1)) xs fzero)) as (u' & E & H).
  - lia.
  - exists 0. split; [lia|]. now rewrite Z.sub_0_r.
  - intros i r Hi (k & Hk & ->). rewrite (@get_nth _ xs (len xs - 1 - i) fzero) by lia. cbn [bind]. eexists. split; [reflexivity|].
    destruct (_ <~ _); [exists i|exists k]; split; solve [lia|reflexivity].
  - rewrite E. intros Q. injection Q as <-. exact H.
Qed.
Lemma Lowest_in (xs : fl) m u : 1 <= m -> xs <> [] -> Lowest xs m = Ok u -> exists k, 0 <= k < Z.min m (len xs) /\ u = nth (Z.to_nat (len xs - 1 - k)) xs fzero.
Proof.
  intros Hm Hne. assert (Hl : 0 < len xs) by (destruct xs; [congruence|rewrite len_cons; pose proof (len_nonneg xs); lia]).
  unfold Lowest. rewrite (@get_nth _ xs (len xs - 1) fzero) by lia. cbn [bind].
  destruct (@for_inv _ (fun i r => exists k, 0 <= k < Z.min m (len xs) /\ r = nth (Z.to_nat (len xs - 1 - k)) xs fzero)
    0 (Z.min m (len xs)) (fun k result => v <- get xs (len xs - 1 - k) ;; Ok (if v <~ result then v else result)) (nth (Z.to_nat (len xs - 1)) xs fzero)) as (u' & E & H).
  - lia.
  - exists 0. split; [lia|]. now rewrite Z.sub_0_r.
  - intros i r Hi (k & Hk & ->). rewrite (@get_nth _ xs (len xs - 1 - i) fzero) by lia. cbn [bind]. eexists. split; [reflexivity|].
    destruct (_ <~ _); [exists i|exists k]; split; solve [lia|reflexivity].
  - rewrite E. intros Q. injection Q as <-. exact H.
Qed.

(** what swings finds at candle [i] *)
Definition news (hi : bool) (sc : scale) (i : nat) (y : F) : Prop :=
  (exists k, (k + span sc = i)%nat /\ turn hi sc k /\ y = price hi k) \/ ((forall k, (k + span sc = i)%nat -> ~ turn hi sc k) /\ y = fzero).

Lemma swings_trace sc (i : nat) os top btm os' : (start <= i < n)%nat -> OS sc os i ->
  swings (firstn (S i) hs) (firstn (S i) ls) (Z.of_nat (span sc)) os = Ok (top, btm, os') ->
  news true sc i top /\ news false sc i btm /\ OS sc os' (S i).
Proof.
  intros Hi HO E. destruct Sh as (S1 & S2 & S3 & S4 & S5).
  assert (Lh : length (firstn (S i) hs) = S i) by (rewrite firstn_length; lia).
  assert (Ll : length (firstn (S i) ls) = S i) by (rewrite firstn_length; lia).
  assert (Nh : firstn (S i) hs <> []) by (intros Q; rewrite Q in Lh; discriminate).
  assert (Nl : firstn (S i) ls <> []) by (intros Q; rewrite Q in Ll; discriminate).
  pose proof (span_pos sc) as Hp. set (d := span sc) in *.
  unfold swings in E.
  destruct (@Highest_ok N O (firstn (S i) hs) (Z.of_nat d) Nh) as (u & Eu & U1 & U2).
  destruct (@Lowest_ok N O (firstn (S i) ls) (Z.of_nat d) Nl) as (w & Ew & W1 & W2).
  destruct (@Highest_in _ (Z.of_nat d) _ ltac:(lia) Nh Eu) as (ku & Ku & Vu).
  destruct (@Lowest_in _ (Z.of_nat d) _ ltac:(lia) Nl Ew) as (kw & Kw & Vw).
  rewrite Eu, Ew in E. cbn [bind] in E. unfold len in *. rewrite Lh, Ll in *.
  assert (Gh : forall k, (k <= i)%nat -> nth k (firstn (S i) hs) fzero = nth k hs fzero) by (intros; apply nth_firstn_lt; lia).
  assert (Gl : forall k, (k <= i)%nat -> nth k (firstn (S i) ls) fzero = nth k ls fzero) by (intros; apply nth_firstn_lt; lia).
  replace (Z.of_nat (S i) - 1) with (Z.of_nat i) in * by lia. rewrite !(@get_nat _ _ i fzero) in E by (rewrite ?Lh, ?Ll; lia). cbn [bind] in E.
  rewrite Gh in Vu by lia. rewrite Gl in Vw by lia.
  replace (Z.of_nat (S i) - Z.of_nat d - 1 >=? 0) with (d <=? i)%nat in E
    by (destruct (Nat.leb_spec d i), (Z.geb_spec (Z.of_nat (S i) - Z.of_nat d - 1) 0); try lia; reflexivity).
  assert (A : forall hl ll, (if (d <=? i)%nat then hl = nth (i - d) hs fzero /\ ll = nth (i - d) ls fzero else hl = nth i hs fzero /\ ll = nth i ls fzero) ->
    (hl >~ u = true <-> (d <= i)%nat /\ swing_high hs d (i - d)) /\ (ll <~ w = true <-> (d <= i)%nat /\ swing_low ls d (i - d))).
  { intros hl ll Hv. destruct (Nat.leb_spec d i) as [Hd|Hd].
    - destruct Hv as [-> ->]. split; split.
      + intros H. split; [exact Hd|]. split; [lia|]. intros q Hq. eapply (not_reached O); [exact H|].
        specialize (U2 (Z.of_nat (i - q)) ltac:(lia)). replace (Z.to_nat (Z.of_nat i - Z.of_nat (i - q))) with q in U2 by lia. rewrite Gh in U2 by lia. exact U2.
      + intros [_ [_ H]]. rewrite Vu. specialize (H (Z.to_nat (Z.of_nat i - ku)) ltac:(lia)).
        rewrite (ol_le O) in H by (apply pos_nn, pos_h; lia). apply negb_false_iff in H. exact H.
      + intros H. split; [exact Hd|]. split; [lia|]. intros q Hq. eapply (not_reached' O); [exact H|].
        specialize (W2 (Z.of_nat (i - q)) ltac:(lia)). replace (Z.to_nat (Z.of_nat i - Z.of_nat (i - q))) with q in W2 by lia. rewrite Gl in W2 by lia. exact W2.
      + intros [_ [_ H]]. rewrite Vw. specialize (H (Z.to_nat (Z.of_nat i - kw)) ltac:(lia)).
        rewrite (ol_le O) in H by (apply pos_nn, pos_l; lia). apply negb_false_iff in H. exact H.
    - destruct Hv as [-> ->]. replace (S i - 1)%nat with i in * by lia. rewrite Gh in U1 by lia. rewrite Gl in W1 by lia. rewrite U1, W1. split; split; solve [discriminate|lia]. }
  assert (B : exists hl ll, (if (d <=? i)%nat then hl = nth (i - d) hs fzero /\ ll = nth (i - d) ls fzero else hl = nth i hs fzero /\ ll = nth i ls fzero) /\
    let os1 := if hl >~ u then 0 else if ll <~ w then 1 else os in
    top = (if (os1 =? 0) && negb (os =? 0) then hl else fzero) /\ btm = (if (os1 =? 1) && negb (os =? 1) then ll else fzero) /\ os' = os1).
  { rewrite Gh, Gl in E by lia. destruct (Nat.leb_spec d i) as [Hd|Hd].
    - replace (Z.of_nat (S i) - Z.of_nat d - 1) with (Z.of_nat (i - d)) in E by lia. rewrite !(@get_nat _ _ (i - d) fzero) in E by (rewrite ?Lh, ?Ll; lia). cbn [bind] in E.
      rewrite Gh, Gl in E by lia. injection E as <- <- <-. do 2 eexists. split; [split; reflexivity|]. cbv zeta. auto.
    - cbn [bind] in E. injection E as <- <- <-. do 2 eexists. split; [split; reflexivity|]. cbv zeta. auto. }
  clear E. destruct B as (hl & ll & Hv & Et & Eb & Eo). destruct (A hl ll Hv) as [Ah Al]. cbv zeta in *.
  assert (Q : forall hi k, (k + d = i)%nat -> turn hi sc k -> (d <= i)%nat /\ swing hi sc (i - d) /\ k = (i - d)%nat).
  { intros hi k Hk [[_ H] _]. split; [lia|]. replace (i - d)%nat with k by lia. auto. }
  pose proof (@LL_step sc i ltac:(lia)) as HL. fold d in HL.
  destruct (hl >~ u) eqn:E1.
  - destruct (proj1 Ah eq_refl) as [Hd Hs]. destruct (Nat.leb_spec d i); [|lia]. destruct Hv as [Vh Vl].
    assert (Fd : found true sc (i - d)) by (split; [fold d; lia|exact Hs]).
    pose proof (turn_high Fd) as TH. fold d in TH. replace (i - d + d)%nat with i in TH by lia.
    assert (NL : forall k, (k + d = i)%nat -> ~ turn false sc k).
    { intros k Hk HT. destruct (Q false k Hk HT) as (_ & H1 & _). exact (@swing_excl sc (i - d) Hs H1). }
    assert (LS : ~ LL sc (S i)).
    { rewrite HL. intros [[_ H1]|[_ H1]]; [exact (@swing_excl sc (i - d) Hs H1)|apply H1; split; [exact Hd|exact Hs]]. }
    subst top btm os'. cbn [Z.eqb andb]. split; [|split].
    + destruct HO as [[-> HO]|[-> HO]]; cbn [Z.eqb negb].
      * left. exists (i - d)%nat. split; [fold d; lia|]. split; [now apply TH|]. exact Vh.
      * right. split; [|reflexivity]. intros k Hk HT. destruct (Q true k Hk HT) as (_ & _ & ->). apply HO. now apply TH.
    + right. split; [exact NL|reflexivity].
    + right. split; [reflexivity|exact LS].
  - assert (NH : ~ ((d <= i)%nat /\ swing_high hs d (i - d))) by (intros H; apply Ah in H; discriminate).
    assert (NT : forall k, (k + d = i)%nat -> ~ turn true sc k).
    { intros k Hk HT. destruct (Q true k Hk HT) as (H1 & H2 & _). apply NH. split; [exact H1|exact H2]. }
    destruct (ll <~ w) eqn:E2.
    + destruct (proj1 Al eq_refl) as [Hd Hs]. destruct (Nat.leb_spec d i); [|lia]. destruct Hv as [Vh Vl].
      assert (Fw : swing false sc (i - d)) by (split; [exact Hs|]; intros Hx; apply NH; split; [exact Hd|exact Hx]).
      assert (Fd : found false sc (i - d)) by (split; [fold d; lia|exact Fw]).
      pose proof (turn_low Fd) as TH. fold d in TH. replace (i - d + d)%nat with i in TH by lia.
      subst top btm os'. cbn [Z.eqb andb]. split; [|split].
      * right. split; [exact NT|reflexivity].
      * destruct HO as [[-> HO]|[-> HO]]; cbn [Z.eqb negb].
        -- right. split; [|reflexivity]. intros k Hk HT. destruct (Q false k Hk HT) as (_ & _ & ->). apply TH in HT. contradiction.
        -- left. exists (i - d)%nat. split; [fold d; lia|]. split; [now apply TH|]. exact Vl.
      * left. split; [reflexivity|]. apply HL. left. split; [exact Hd|exact Fw].
    + assert (NB : ~ ((d <= i)%nat /\ swing_low ls d (i - d))) by (intros H; apply Al in H; discriminate).
      assert (NF : forall k, (k + d = i)%nat -> ~ turn false sc k).
      { intros k Hk HT. destruct (Q false k Hk HT) as (H1 & H2 & _). apply NB. split; [exact H1|apply H2]. }
      subst top btm os'. assert (T0 : (if (os =? 0) && negb (os =? 0) then hl else fzero) = fzero) by (now destruct (os =? 0)).
      assert (B0 : (if (os =? 1) && negb (os =? 1) then ll else fzero) = fzero) by (now destruct (os =? 1)).
      rewrite T0, B0. split; [right; split; [exact NT|reflexivity]|]. split; [right; split; [exact NF|reflexivity]|].
      assert (LS : LL sc (S i) <-> LL sc i).
      { rewrite HL. split; [intros [[H1 [H2 _]]|[H1 _]]; [exfalso; apply NB; split; [exact H1|exact H2]|exact H1]|].
        intros H. right. split; [exact H|]. intros [H1 H2]. apply NH. split; [exact H1|exact H2]. }
      unfold OS. rewrite LS. exact HO.
Qed.

(** ** pivots: [known b i] is the state at candle [i], before ([b] = false) or after ([b] = true) its close is looked at *)
Definition PIV (hi : bool) (sc : scale) (i j : nat) (v : Pivot) : Prop :=
  (v = pivot0 /\ forall k, turn hi sc k -> (i < k + span sc)%nat) \/
  (exists k, latest hi sc k i /\ pvX v = Z.of_nat k /\ pvY v = price hi k /\
     (pvCross v = true <-> forall i', (i' < j)%nat -> ~ passes hi sc k i')).

Lemma turn_bound hi sc k : turn hi sc k -> (k + span sc < n)%nat.
Proof. intros [[_ H] _]. exact (@swing_bound hi sc k H). Qed.
Lemma latest_unique hi sc k k' i : latest hi sc k i -> latest hi sc k' i -> k = k'.
Proof. intros (T & B & M) (T' & B' & M'). specialize (M k' T' B'). specialize (M' k T B). lia. Qed.
Lemma passes_back hi sc k i i' : latest hi sc k i' -> passes hi sc k i -> (k + span sc <= i)%nat.
Proof. intros _ ((_ & H & _) & _). exact H. Qed.

Lemma arm_trace hi sc i v y : (1 <= i < n)%nat -> PIV hi sc (i - 1) i v -> news hi sc i y ->
  PIV hi sc i i (arm y (Z.of_nat i - Z.of_nat (span sc)) v).
Proof.
  intros Hi HP [(k & Hk & HT & ->)|[HN ->]].
  - pose proof (turn_bound HT) as Hb. destruct (@pos_neq (price hi k)) as [Z0 _]; [apply price_pos; lia|].
    unfold arm. rewrite Z0. cbn [negb]. right. exists k. split.
    + split; [exact HT|]. split; [lia|]. intros; lia.
    + cbn [pvX pvY pvCross]. split; [lia|]. split; [reflexivity|]. split; [|reflexivity]. intros _ i' Hi' ((_ & H & _) & _). lia.
  - unfold arm. rewrite (feq_zero O). cbn [negb]. destruct HP as [[-> H]|(k & (HT & HB & HM) & HX & HY & HC)].
    + left. split; [reflexivity|]. intros k HT. specialize (H k HT). destruct (Nat.eq_dec (k + span sc) i) as [E|E]; [|lia].
      exfalso. exact (HN k E HT).
    + right. exists k. split; [|auto]. split; [exact HT|]. split; [lia|]. intros k' HT' HB'.
      destruct (Nat.eq_dec (k' + span sc) i) as [E|E]; [exfalso; exact (HN k' E HT')|]. apply HM; [exact HT'|lia].
Qed.

Definition crossb (hi : bool) (y : F) (i : nat) : bool :=
  if hi then (nth (i - 1) cs fzero <~ y) && (y <~ nth i cs fzero) else (y <~ nth (i - 1) cs fzero) && (nth i cs fzero <~ y).
Lemma crossb_iff hi y i : (1 <= i < n)%nat -> (crossb hi y i = true <-> crosses hi y i).
Proof.
  intros Hi. destruct Sh as (_ & _ & _ & S4 & _). unfold crossb, SpecSmc2.crosses. rewrite S4.
  destruct hi; rewrite andb_true_iff; tauto.
Qed.
Lemma cross_zero hi i : (1 <= i < n)%nat -> crossb hi fzero i = false.
Proof.
  intros Hi. destruct Sh as (_ & _ & _ & S4 & _). rewrite Forall_forall in Pc.
  assert (H : forall q, (q < n)%nat -> (nth q cs fzero <~ fzero) = false) by (intros q Hq; apply Pc, nth_In; lia).
  unfold crossb. destruct hi; rewrite !H by lia; [reflexivity|apply andb_false_r].
Qed.
Lemma CrossOver_b (i : nat) y : (1 <= i < n)%nat -> CrossOver (firstn (S i) cs) y = Ok (crossb true y i).
Proof.
  intros Hi. destruct Sh as (_ & _ & _ & S4 & _). assert (L : length (firstn (S i) cs) = S i) by (rewrite firstn_length; lia).
  rewrite CrossOver_spec by lia. rewrite L. replace (S i - 1)%nat with i by lia. replace (S i - 2)%nat with (i - 1)%nat by lia.
  rewrite !nth_firstn_lt by lia. unfold crossb. now rewrite andb_comm.
Qed.
Lemma CrossUnder_b (i : nat) y : (1 <= i < n)%nat -> CrossUnder (firstn (S i) cs) y = Ok (crossb false y i).
Proof.
  intros Hi. destruct Sh as (_ & _ & _ & S4 & _). assert (L : length (firstn (S i) cs) = S i) by (rewrite firstn_length; lia).
  rewrite CrossUnder_spec by lia. rewrite L. replace (S i - 1)%nat with i by lia. replace (S i - 2)%nat with (i - 1)%nat by lia.
  rewrite !nth_firstn_lt by lia. unfold crossb. now rewrite andb_comm.
Qed.

Definition disarm (f : bool) (v : Pivot) : Pivot := if f then mkPivot (pvY v) (pvX v) false else v.
(** what the code tests at candle [i], given the pivot of the scale and of the long scale *)
Definition testb (hi : bool) (sc : scale) (v vl : Pivot) (i : nat) : bool :=
  match sc with
  | Short => crossb hi (pvY v) i && pvCross v && negb (pvY vl ==~ pvY v)
  | Long => crossb hi (pvY v) i && pvCross v
  end.
Lemma test_trace hi sc v vl i : (1 <= i < n)%nat -> PIV hi sc i i v -> PIV hi Long i i vl ->
  (if testb hi sc v vl i then exists k, breaks hi sc k i /\ pvX v = Z.of_nat k /\ pvY v = price hi k
   else forall k, ~ breaks hi sc k i) /\
  PIV hi sc i (S i) (disarm (testb hi sc v vl i) v).
Proof.
  intros Hi HP HL. destruct HP as [[-> H]|(k & Hk & HX & HY & HC)].
  - assert (T : testb hi sc pivot0 vl i = false) by (unfold testb; cbn [pvY pivot0]; rewrite cross_zero by exact Hi; now destruct sc).
    rewrite T. split.
    + intros k [((HT & HB & _) & _) _]. specialize (H k HT). lia.
    + left. split; [reflexivity|exact H].
  - assert (Hkn : (k < n)%nat) by (destruct Hk as [HT _]; pose proof (turn_bound HT); lia).
    assert (D : (sc = Short -> forall k', latest hi Long k' i -> (price hi k' ==~ price hi k) = false) <->
                (sc = Short -> (pvY vl ==~ pvY v) = false)).
    { split.
      - intros Q Es. specialize (Q Es). rewrite HY. destruct HL as [[-> _]|(k' & Hk' & _ & -> & _)]; [|now apply Q].
        cbn [pivot0 pvY]. apply pos_neq, price_pos, Hkn.
      - intros Q Es k' Hk'. specialize (Q Es). rewrite HY in Q. destruct HL as [[_ H]|(k2 & Hk2 & _ & EY & _)].
        + destruct Hk' as (HT & HB & _). specialize (H k' HT). lia.
        + rewrite <- (latest_unique Hk2 Hk'), <- EY. exact Q. }
    assert (P : passes hi sc k i <-> crossb hi (pvY v) i = true /\ (sc = Short -> (pvY vl ==~ pvY v) = false)).
    { unfold SpecSmc2.passes. rewrite D, <- crossb_iff, HY by exact Hi. tauto. }
    assert (T : testb hi sc v vl i = true <-> breaks hi sc k i).
    { unfold SpecSmc2.breaks. rewrite P, <- HC. unfold testb. destruct sc; rewrite !andb_true_iff, ?negb_true_iff; [|intuition congruence].
      intuition. }
    assert (U : forall k', breaks hi sc k' i -> k' = k).
    { intros k' [[Hk' _] _]. exact (latest_unique Hk' Hk). }
    destruct (testb hi sc v vl i) eqn:E.
    + pose proof (proj1 T eq_refl) as HB. split; [exists k; auto|]. right. exists k. cbn [disarm pvX pvY pvCross].
      do 3 (split; [assumption|]). split; [discriminate|]. intros C. exfalso. apply (C i); [lia|]. apply HB.
    + assert (NB : ~ breaks hi sc k i) by (intros C; apply T in C; discriminate). split.
      * intros k' HB. rewrite (U k' HB) in HB. contradiction.
      * right. exists k. cbn [disarm]. do 3 (split; [assumption|]). rewrite HC. split; intros C i' Hi'; [|apply C; lia].
        destruct (Nat.eq_dec i' i) as [->|]; [|apply C; lia]. intros HPs. apply NB. split; [exact HPs|exact C].
Qed.
Lemma PIV_next hi sc i v : PIV hi sc i (S i) v -> PIV hi sc (S i - 1) (S i) v.
Proof. now replace (S i - 1)%nat with i by lia. Qed.

(** ** trends *)
Definition dirZ (hi : bool) : Z := if hi then 1 else -1.
Definition TR (sc : scale) (i : nat) (t : Z) : Prop :=
  (t = 0 /\ forall hi k i', (i' < i)%nat -> ~ breaks hi sc k i') \/
  (exists hi k0 i0, (i0 < i)%nat /\ breaks hi sc k0 i0 /\ t = dirZ hi /\ forall hi' k' i', (i0 < i' < i)%nat -> ~ breaks hi' sc k' i').
Lemma one_side hi sc k k' sc' i : breaks hi sc k i -> breaks (negb hi) sc' k' i -> False.
Proof.
  assert (G : forall y1 y2, crosses true y1 i -> crosses false y2 i -> False).
  { intros y1 y2 [_ [A B]] [_ [C D]]. pose proof (@lt_trans N O _ _ _ A B) as E1. pose proof (@lt_trans N O _ _ _ D C) as E2.
    pose proof (@lt_trans N O _ _ _ E1 E2) as E3. rewrite (flt_irrefl O) in E3. discriminate. }
  intros [(_ & A & _) _] [(_ & B & _) _]. destruct hi; cbn [negb] in *; eapply G; eassumption.
Qed.
Lemma TR_against sc i t (hi : bool) : TR sc i t -> ((if hi then t <? 0 else t >? 0) = true <-> against hi sc i).
Proof.
  intros [[-> H]|(h & k0 & i0 & H0 & HB & -> & HN)].
  - split; [destruct hi; discriminate|]. intros (k1 & i1 & H1 & HB & _). exfalso. exact (H _ _ _ H1 HB).
  - assert (E : (if hi then dirZ h <? 0 else dirZ h >? 0) = eqb h (negb hi)) by (destruct hi, h; reflexivity).
    rewrite E. split.
    + intros Q. apply eqb_prop in Q as ->. exists k0, i0. split; [exact H0|]. split; [exact HB|]. intros k' i' Hi'. now apply HN.
    + intros (k1 & i1 & H1 & HB1 & HN1). apply eqb_true_iff. destruct (Bool.bool_dec h (negb hi)) as [|Hd]; [assumption|exfalso].
      assert (Eh : h = hi) by (destruct h, hi; cbn in *; congruence). subst h.
      destruct (Nat.lt_trichotomy i0 i1) as [C|[->|C]].
      * apply (HN (negb hi) k1 i1); [lia|exact HB1].
      * exact (one_side HB HB1).
      * apply (HN1 k0 i0); [lia|exact HB].
Qed.
Lemma TR_rising i t : TR Short (S i) t -> ((t >? 0) = true <-> short_rising i).
Proof.
  intros H. pose proof (@TR_against Short (S i) t false H) as A. cbn [negb] in A. rewrite A. unfold SpecSmc2.against, SpecSmc2.short_rising. cbn [negb].
  split; intros (k0 & i0 & H0 & H1 & H2); exists k0, i0; (split; [lia|]; split; [exact H1|]); intros k' i' Hi'; apply H2; lia.
Qed.
Lemma TR_step sc i t (fh fl_ : bool) : TR sc i t ->
  (if fh then exists k, breaks true sc k i else forall k, ~ breaks true sc k i) ->
  (if fl_ then exists k, breaks false sc k i else forall k, ~ breaks false sc k i) ->
  TR sc (S i) (if fl_ then -1 else if fh then 1 else t).
Proof.
  intros HT Hh Hl. destruct fl_; [|destruct fh].
  - destruct Hl as (k & HB). right. exists false, k, i. split; [lia|]. split; [exact HB|]. split; [reflexivity|]. intros; lia.
  - destruct Hh as (k & HB). right. exists true, k, i. split; [lia|]. split; [exact HB|]. split; [reflexivity|]. intros; lia.
  - assert (NB : forall hi k, ~ breaks hi sc k i) by (intros [] k; auto).
    destruct HT as [[-> H]|(h & k0 & i0 & H0 & HB & -> & HN)].
    + left. split; [reflexivity|]. intros hi k i' Hi'. destruct (Nat.eq_dec i' i) as [->|]; [apply NB|apply H; lia].
    + right. exists h, k0, i0. split; [lia|]. split; [exact HB|]. split; [reflexivity|]. intros hi' k' i' Hi'.
      destruct (Nat.eq_dec i' i) as [->|]; [apply NB|apply HN; lia].
Qed.

(** ** rows *)
Definition field_for (hi : bool) (sc : scale) (ch : bool) : field :=
  match hi, sc, ch with
  | true, Short, false => fHighBOSShort | true, Short, true => fHighCHoCHShort
  | true, Long, false => fHighBOSLong | true, Long, true => fHighCHoCHLong
  | false, Short, false => fLowBOSShort | false, Short, true => fLowChoCHShort
  | false, Long, false => fLowBOSLong | false, Long, true => fLowChoCHLong
  end.
Definition CH (hi : bool) (sc : scale) (i : nat) : Prop :=
  match hi, sc with false, Long => short_rising i | _, _ => against hi sc i end.
Definition labelled (hi : bool) (sc : scale) (ch : bool) (k i : nat) : Prop := breaks hi sc k i /\ if ch then CH hi sc i else ~ CH hi sc i.
Definition upto (P : nat -> nat -> Prop) (b k i : nat) : Prop := P k i /\ (i < b)%nat.
Definition ROWS (b : nat) (data : list (row SmcVal)) : Prop :=
  length data = n /\ forall j r, nth_error data j = Some r -> forall hi sc ch, shown hi (upto (labelled hi sc ch) b) j (field_of (field_for hi sc ch) (rVal r)).
(** what the four steps of one candle leave behind: row fields updated for the (side, scale) pairs done so far *)
Definition ROWS' (i : nat) (done : bool -> scale -> bool) (data : list (row SmcVal)) : Prop :=
  length data = n /\ forall j r, nth_error data j = Some r -> forall hi sc ch,
    shown hi (upto (labelled hi sc ch) (if done hi sc then S i else i)) j (field_of (field_for hi sc ch) (rVal r)).

Lemma field_for_inj hi sc ch hi' sc' ch' : field_for hi sc ch = field_for hi' sc' ch' -> hi = hi' /\ sc = sc' /\ ch = ch'.
Proof. destruct hi, sc, ch, hi', sc', ch'; cbn; intros; try discriminate; auto. Qed.
Lemma put_same f y v : field_of f (put f y v) = y.
Proof. now destruct v, f. Qed.
Lemma put_other f g y v : f <> g -> field_of g (put f y v) = field_of g v.
Proof. destruct v, f, g; cbn; intros; congruence. Qed.

Lemma shown_ext hi (P Q : nat -> nat -> Prop) j y : (forall k i, P k i <-> Q k i) -> shown hi P j y -> shown hi Q j y.
Proof.
  intros E [(k & i & H1 & H2 & H3 & H4)|[H1 H2]].
  - left. exists k, i. split; [now apply E|]. split; [exact H2|]. split; [exact H3|]. intros k' i' H. apply H4. now apply E.
  - right. split; [exact H1|]. intros k i H. apply H2. now apply E.
Qed.

Lemma brk_trace hi sc i (f ch : bool) v data idx lst v' data' idx' lst' useMax done :
  (1 <= i < n)%nat -> ROWS' i done data -> done hi sc = false ->
  (if f then exists k, breaks hi sc k i /\ pvX v = Z.of_nat k /\ pvY v = price hi k else forall k, ~ breaks hi sc k i) ->
  (ch = true <-> CH hi sc i) ->
  brk oh f ch useMax (field_for hi sc false) (field_for hi sc true) (Z.of_nat i) (firstn (S i) hs) (firstn (S i) ls) (firstn (S i) atr) v (data, idx, lst)
    = Ok (v', (data', idx', lst')) ->
  v' = disarm f v /\
  ROWS' i (fun h s => (eqb h hi && match s, sc with Short, Short => true | Long, Long => true | _, _ => false end) || done h s) data' /\
  (if f then obCoord oh useMax (Z.of_nat i) (pvX v) (firstn (S i) hs) (firstn (S i) ls) (firstn (S i) atr) idx lst = Ok (idx', lst') else idx' = idx /\ lst' = lst).
Proof.
  intros Hi [Hl HR] Hdone Hf Hch E. unfold brk in E. destruct f.
  - destruct Hf as (k & HB & HX & HY).
    assert (Hk : (k + span sc <= i)%nat) by (destruct HB as [((_ & H & _) & _) _]; exact H).
    destruct (@draw_ok N (if ch then field_for hi sc true else field_for hi sc false) (pvY v) (pvX v) (Z.of_nat i) data) as (d & Ed & Ld & Hd); [lia|unfold len; lia|].
    rewrite Ed in E. cbn [bind] in E. destruct (obCoord _ _ _ _ _ _ _ _ _) as [[ix lx]|] eqn:Eo; [|discriminate]. cbn [bind] in E.
    injection E as <- <- <- <-. split; [reflexivity|]. split; [|reflexivity]. split; [congruence|].
    intros j r Hj h s c.
    destruct (nth_error data j) as [r0|] eqn:E0.
    2:{ apply nth_error_None in E0. assert (j < length d)%nat by (apply nth_error_Some; congruence). lia. }
    rewrite (Hd _ _ E0) in Hj. injection Hj as <-. specialize (HR _ _ E0 h s c).
    replace (if ch then field_for hi sc true else field_for hi sc false) with (field_for hi sc ch) by (now destruct ch).
    destruct (eqb h hi && match s, sc with Short, Short => true | Long, Long => true | _, _ => false end) eqn:Es.
    + apply andb_true_iff in Es as [Eh Es]. apply eqb_prop in Eh as ->. assert (s = sc) as -> by (destruct s, sc; congruence). rewrite Hdone in HR. cbn [orb].
      destruct (Bool.bool_dec c ch) as [->|Hc].
      * assert (LB : labelled hi sc ch k i) by (split; [exact HB|]; destruct ch; [now apply Hch|intros C; apply Hch in C; discriminate]).
        destruct ((pvX v <=? Z.of_nat j) && (Z.of_nat j <=? Z.of_nat i)) eqn:Ej.
        -- apply andb_true_iff in Ej as [J1 J2]. cbn [rVal]. rewrite put_same. left. exists k, i. split; [split; [exact LB|lia]|]. split; [lia|].
           split; [exact HY|]. intros k' i' [_ H] _. lia.
        -- assert (NJ : ~ (k <= j <= i)%nat) by (intros C; destruct (Z.leb_spec (pvX v) (Z.of_nat j)), (Z.leb_spec (Z.of_nat j) (Z.of_nat i)); try lia; discriminate).
           destruct HR as [(k1 & i1 & [H1 H1'] & H2 & H3 & H4)|[H1 H2]].
           ++ left. exists k1, i1. split; [split; [exact H1|lia]|]. split; [exact H2|]. split; [exact H3|]. intros k' i' [HP Hb] Hc.
              destruct (Nat.eq_dec i' i) as [->|]; [exfalso|apply (H4 k' i'); [split; [exact HP|lia]|exact Hc]].
              destruct HP as [[[Lk _] _] _]. destruct HB as [[Lk2 _] _]. rewrite (latest_unique Lk Lk2) in Hc. contradiction.
           ++ right. split; [exact H1|]. intros k' i' [HP Hb] Hc.
              destruct (Nat.eq_dec i' i) as [->|]; [|apply (H2 k' i'); [split; [exact HP|lia]|exact Hc]].
              destruct HP as [[[Lk _] _] _]. destruct HB as [[Lk2 _] _]. rewrite (latest_unique Lk Lk2) in Hc. contradiction.
      * assert (EF : field_of (field_for hi sc c) (rVal (if (pvX v <=? Z.of_nat j) && (Z.of_nat j <=? Z.of_nat i) then mkRow (rTime r0) (put (field_for hi sc ch) (pvY v) (rVal r0)) else r0)) = field_of (field_for hi sc c) (rVal r0)).
        { destruct ((pvX v <=? _) && _); [|reflexivity]. cbn [rVal]. apply put_other. intros Q. apply field_for_inj in Q as (_ & _ & Q). congruence. }
        rewrite EF. eapply shown_ext; [|exact HR]. intros k' i'. unfold upto. split; intros [HP Hb]; (split; [exact HP|]); [lia|].
        destruct (Nat.eq_dec i' i) as [->|]; [exfalso|lia]. destruct HP as [_ HC]. apply Hc. destruct c, ch; try reflexivity; exfalso.
        -- apply Hch in HC. discriminate.
        -- apply HC. now apply Hch.
    + cbn [orb].
      assert (EF : field_of (field_for h s c) (rVal (if (pvX v <=? Z.of_nat j) && (Z.of_nat j <=? Z.of_nat i) then mkRow (rTime r0) (put (field_for hi sc ch) (pvY v) (rVal r0)) else r0)) = field_of (field_for h s c) (rVal r0)).
      { destruct ((pvX v <=? _) && _); [|reflexivity]. cbn [rVal]. apply put_other. intros Q. apply field_for_inj in Q as (-> & -> & _). rewrite eqb_reflx in Es. now destruct s. }
      rewrite EF. exact HR.
  - injection E as <- <- <- <-. split; [reflexivity|]. split; [|auto]. split; [exact Hl|]. intros j r Hj h s c. specialize (HR _ _ Hj h s c).
    destruct (eqb h hi && match s, sc with Short, Short => true | Long, Long => true | _, _ => false end) eqn:Es; [|exact HR].
    apply andb_true_iff in Es as [Eh Es]. apply eqb_prop in Eh as ->. assert (s = sc) as -> by (destruct s, sc; congruence). rewrite Hdone in HR. cbn [orb].
    eapply shown_ext; [|exact HR]. intros k' i'. unfold upto. split; intros [HP Hb]; (split; [exact HP|]); [lia|].
    destruct (Nat.eq_dec i' i) as [->|]; [exfalso; destruct HP as [HP _]; exact (Hf _ HP)|lia].
Qed.

(** ** order blocks *)
Hypothesis In_ : InfLaws N.
Hypothesis Plb : Forall (fun x => (x <=~ ofZ 99999999) = true) ls.
Definition better (top : bool) (a b : F) : bool := if top then b <~ a else a <~ b.
Definition pick (top : bool) (a b : F) : F := if top then fmax a b else fmin a b.
Definition edge (top : bool) (q : nat) : F := nth q (if top then hs else ls) fzero.
Definition key (top : bool) (mn mx : F) : F := if top then mx else mn.
Lemma pick_l top a b : better top a (pick top a b) = false.
Proof. destruct top; [apply (fmax_l O In_)|apply (fmin_l O In_)]. Qed.
Lemma pick_r top a b : better top b (pick top a b) = false.
Proof. destruct top; [apply (fmax_r O In_)|apply (fmin_r O In_)]. Qed.
Lemma pick_in top a b : pick top a b = a \/ pick top a b = b.
Proof. destruct top; [apply fmax_in|apply fmin_in]. Qed.
Lemma better_ntrans top a b c : nn a -> nn b -> nn c -> better top a b = false -> better top b c = false -> better top a c = false.
Proof. destruct top; cbn [better]; intros; [exact (@ol_ntrans N O c b a ltac:(assumption) ltac:(assumption) ltac:(assumption) ltac:(assumption) ltac:(assumption))|eapply (ol_ntrans O) with (y := b); assumption]. Qed.
Lemma better_eq top a b : nn a -> nn b -> (feq a b = true <-> better top a b = false /\ better top b a = false).
Proof. intros Ha Hb. rewrite (ol_eq O) by assumption. destruct top; cbn [better]; destruct (a <~ b), (b <~ a); cbn; intuition congruence. Qed.
Lemma edge_nn top q : (q < n)%nat -> nn (edge top q).
Proof. intros Hq. apply pos_nn. unfold edge. destruct top; [now apply pos_h|now apply pos_l]. Qed.
Lemma key0 top q : (q < n)%nat -> better top (key top (ofZ 99999999) (ofZ 0)) (edge top q) = false /\ nn (key top (ofZ 99999999) (ofZ 0)).
Proof.
  intros Hq. unfold edge, key. destruct top; cbn [better].
  - pose proof (pos_h Hq) as H. split; [|apply (ol_zero O)]. destruct (@lt_nn N O _ _ H) as [H1 H2]. exact (@ol_asym N O _ _ H1 H2 H).
  - destruct Sh as (_ & _ & S3 & _). rewrite Forall_forall in Plb. assert (H : (nth q ls fzero <=~ ofZ 99999999) = true) by (apply Plb, nth_In; lia).
    assert (Hn : nn (ofZ 99999999 : F)). { unfold nn. destruct (isNaN (ofZ 99999999)) eqn:E; [|reflexivity]. destruct (@ol_lt_nan N O (nth q ls fzero) (ofZ 99999999)) as (_ & C & _); [now right|congruence]. }
    split; [|exact Hn]. rewrite (ol_le O) in H; [now apply negb_true_iff in H|apply pos_nn; now apply pos_l|exact Hn].
Qed.
Local Notation calm := (calm hs ls atr).
Definition calmb (q : nat) : bool := (nth q hs fzero -~ nth q ls fzero) <~ (nth q atr fzero *~ ofZ 2).
Lemma step_trace top (i k : nat) mn mx idx idp : (i < n)%nat -> (k <= i)%nat -> exists mn' mx' ix ip,
  ob_step top (Z.of_nat i) (firstn (S i) hs) (firstn (S i) ls) (firstn (S i) atr) (Z.of_nat k) (mn, mx, idx, idp) = Ok (mn', mx', ix, ip) /\
  if calmb (i - k) then key top mn' mx' = pick top (edge top (i - k)) (key top mn mx) /\ ip = ix /\
       ix = (if key top mn' mx' ==~ edge top (i - k) then Z.of_nat (i - k) else idp)
  else (mn', mx', ix, ip) = (mn, mx, idx, idp).
Proof.
  intros Hi Hk. destruct Sh as (S1 & S2 & S3 & S4 & S5). unfold ob_step. replace (Z.of_nat i - Z.of_nat k) with (Z.of_nat (i - k)) by lia.
  rewrite (@get_nat _ (firstn (S i) hs) (i - k) fzero), (@get_nat _ (firstn (S i) ls) (i - k) fzero), (@get_nat _ (firstn (S i) atr) (i - k) fzero) by (rewrite firstn_length; lia).
  cbn [bind]. rewrite !nth_firstn_lt by lia. change ((nth (i - k) hs fzero -~ nth (i - k) ls fzero) <~ (nth (i - k) atr fzero *~ ofZ 2)) with (calmb (i - k)).
  destruct (calmb (i - k)); [|do 4 eexists; split; reflexivity].
  unfold key, pick, edge. destruct top; (do 4 eexists; split; [reflexivity|]; auto).
Qed.
Lemma scan_trace top (i k : nat) idx idx' idp : (i < n)%nat -> (k <= i)%nat ->
  ob_scan top (Z.of_nat i) (Z.of_nat k) (firstn (S i) hs) (firstn (S i) ls) (firstn (S i) atr) idp = Ok (idx, idx') ->
  exists q, idx = Z.of_nat q /\ block_candle hs ls atr top k i q.
Proof.
  intros Hi Hk. unfold ob_scan. change (@for_ (F * F * Z * Z) 0) with (@for_ (F * F * Z * Z) (Z.of_nat 0)). replace (Z.of_nat i - Z.of_nat k + 1) with (Z.of_nat (i - k + 1)) by lia.
  destruct (@for_inv_nat _ (fun m (s : F * F * Z * Z) => let '(mn, mx, ix, ip) := s in
     ((forall q, (i < q + m)%nat -> (q <= i)%nat -> ~ calm q) /\ ix = 1 /\ key top mn mx = key top (ofZ 99999999) (ofZ 0)) \/
     (exists q, (i < q + m)%nat /\ (q <= i)%nat /\ ix = Z.of_nat q /\ ip = ix /\ calm q /\ nn (key top mn mx) /\ feq (key top mn mx) (edge top q) = true /\
        forall q', (i < q' + m)%nat -> (q' <= i)%nat -> calm q' -> q' <> q -> better top (edge top q') (edge top q) = false /\ ((q' < q)%nat -> better top (edge top q) (edge top q') = true)))
     0 (i - k + 1)%nat (ob_step top (Z.of_nat i) (firstn (S i) hs) (firstn (S i) ls) (firstn (S i) atr)) (ofZ 99999999, ofZ 0, 1, idp)) as ([[[mn mx] ix] ip] & E & H).
  - lia.
  - left. split; [intros; lia|]. auto.
  - intros m [[[mn mx] ix] ip] Hm H. destruct (@step_trace top i m mn mx ix ip Hi ltac:(lia)) as (mn' & mx' & ix' & ip' & E & R).
    exists (mn', mx', ix', ip'). split; [exact E|]. clear E. set (c := (i - m)%nat) in *. assert (Hc : (c < n)%nat) by lia. assert (Nc : nn (edge top c)) by now apply edge_nn.
    assert (Cb : calmb c = true <-> calm c) by reflexivity.
    destruct (calmb c) eqn:Ec.
    + destruct R as (Rk & -> & Rx). assert (Cc : calm c) by now apply Cb. clear Cb.
      assert (W : forall ks, nn ks -> (pick top (edge top c) ks ==~ edge top c) = false ->
         pick top (edge top c) ks = ks /\ better top ks (edge top c) = true).
      { intros ks Nk Q. pose proof (pick_l top (edge top c) ks) as P1. pose proof (pick_r top (edge top c) ks) as P2.
        destruct (pick_in top (edge top c) ks) as [P|P]; rewrite P in *.
        - rewrite (feq_refl O) in Q by exact Nc. discriminate.
        - split; [reflexivity|]. destruct (better top ks (edge top c)) eqn:B; [reflexivity|].
          assert (C : feq ks (edge top c) = true) by (apply (@better_eq top); auto). congruence. }
      destruct H as [(H1 & -> & H3)|(q & H1 & H2 & -> & -> & H3 & H4 & H5 & H6)].
      * right. destruct (@key0 top c Hc) as [K1 K2]. rewrite H3 in Rk. rewrite Rk in Rx.
        destruct (pick top (edge top c) (key top (ofZ 99999999) (ofZ 0)) ==~ edge top c) eqn:Q.
        -- exists c. split; [lia|]. split; [lia|]. split; [exact Rx|]. split; [reflexivity|]. split; [exact Cc|]. rewrite Rk.
           split; [now apply (feq_nn O) in Q|]. split; [exact Q|]. intros q' A B C D. exfalso. apply (H1 q'); [lia|lia|exact C].
        -- destruct (W _ K2 Q) as [_ C]. rewrite C in K1. discriminate.
      * right. rewrite Rk in Rx. destruct (pick top (edge top c) (key top mn mx) ==~ edge top c) eqn:Q.
        -- exists c. split; [lia|]. split; [lia|]. split; [exact Rx|]. split; [reflexivity|]. split; [exact Cc|]. rewrite Rk.
           assert (Np : nn (pick top (edge top c) (key top mn mx))) by now apply (feq_nn O) in Q. split; [exact Np|]. split; [exact Q|].
           intros q' A B C D. split; [|lia]. apply (@better_eq top) in Q as [Q1 Q2]; [|exact Np|exact Nc].
           assert (Nq : nn (edge top q)) by (apply edge_nn; lia). assert (Nq' : nn (edge top q')) by (apply edge_nn; lia).
           apply (@better_eq top) in H5 as [H5 H5']; [|exact H4|exact Nq].
           assert (L1 : better top (edge top q') (edge top q) = false).
           { destruct (Nat.eq_dec q' q) as [->|]; [|apply H6; [lia|lia|exact C|assumption]]. destruct top; cbn [better]; apply (flt_irrefl O). }
           apply better_ntrans with (edge top q); auto. apply better_ntrans with (key top mn mx); auto.
           apply better_ntrans with (pick top (edge top c) (key top mn mx)); auto. apply pick_r.
        -- destruct (W _ H4 Q) as [W1 W2]. exists q. split; [lia|]. split; [lia|]. split; [exact Rx|]. split; [reflexivity|]. split; [exact H3|]. rewrite Rk, W1.
           split; [exact H4|]. split; [exact H5|]. intros q' A B C D. destruct (Nat.eq_dec q' c) as [->|Hne].
           ++ assert (Nq : nn (edge top q)) by (apply edge_nn; lia). apply (@better_eq top) in H5 as [H5 H5']; [|exact H4|exact Nq].
              assert (G : better top (edge top q) (edge top c) = true).
              { destruct (better top (edge top q) (edge top c)) eqn:B'; [reflexivity|].
                rewrite (@better_ntrans top (key top mn mx) (edge top q) (edge top c)) in W2 by assumption. discriminate. }
              split; [|auto]. destruct top; cbn [better] in *; now apply (lt_excl O).
           ++ apply H6; [lia|lia|exact C|exact D].
    + assert (Nc' : ~ calm c) by (intros C; apply Cb in C; discriminate). injection R as -> -> -> ->.
      destruct H as [(H1 & -> & H3)|(q & H1 & H2 & H3 & H4 & H5 & H6 & H7 & H8)].
      * left. split; [|auto]. intros q A B. destruct (Nat.eq_dec q c) as [->|]; [exact Nc'|]. apply H1; lia.
      * right. exists q. split; [lia|]. do 6 (split; [assumption|]). intros q' A B C D. destruct (Nat.eq_dec q' c) as [->|]; [contradiction|]. apply H8; [lia|lia|exact C|exact D].
  - rewrite E. cbn [bind]. intros Q. injection Q as <- <-. destruct H as [(H1 & -> & _)|(q & H1 & H2 & -> & _ & H3 & _ & _ & H6)].
    + exists 1%nat. split; [reflexivity|]. right. split; [reflexivity|]. intros q' Hq'. apply H1; lia.
    + exists q. split; [reflexivity|]. left. split; [lia|]. split; [exact H3|]. intros q' A B C. destruct (H6 q') as [G1 G2]; [lia|lia|exact B|exact C|].
      unfold beyond, better, edge in *. destruct top; (split; [congruence|exact G2]).
Qed.

Definition BLK (sc : scale) (b : nat) (lst : list Block) : Prop :=
  uniq lst /\ Forall (fun bk => exists k i q, (i < b)%nat /\ breaks (negb (bkTop bk)) sc k i /\ block_candle hs ls atr (bkTop bk) k i q /\ block_of oh q bk) lst.
Lemma BLK_mono sc b b' lst : (b <= b')%nat -> BLK sc b lst -> BLK sc b' lst.
Proof.
  intros H [H1 H2]. split; [exact H1|]. eapply Forall_impl; [|exact H2]. intros bk (k & i & q & A & B). exists k, i, q. split; [lia|exact B].
Qed.
Lemma obCoord_trace sc top (i k : nat) idp lst idp' lst' : (1 <= i < n)%nat -> (k <= i)%nat -> BLK sc (S i) lst -> breaks (negb top) sc k i ->
  obCoord oh top (Z.of_nat i) (Z.of_nat k) (firstn (S i) hs) (firstn (S i) ls) (firstn (S i) atr) idp lst = Ok (idp', lst') -> BLK sc (S i) lst' /\
  exists q b, block_candle hs ls atr top k i q /\ block_of oh q b /\ bkTop b = top /\ lst' = bkAdd lst b.
Proof.
  intros Hi Hk [U HB] Hbr E. destruct Sh as (S1 & S2 & S3 & S4 & S5). unfold obCoord in E.
  destruct (ob_scan _ _ _ _ _ _ _) as [[idx ip]|] eqn:Es; [|discriminate]. cbn [bind] in E.
  apply scan_trace in Es as (q & -> & Hq); [|lia|lia]. assert (Hqi : (q <= i)%nat) by (destruct Hq as [[Q _]|[Q _]]; lia).
  unfold time_in in E. rewrite (@get_nat _ (oTime oh) q 0) in E by lia. cbn [bind] in E.
  rewrite (@get_nat _ (oOpen oh) q fzero), (@get_nat _ (oClose oh) q fzero) in E by lia. cbn [bind] in E.
  rewrite (@get_nat _ (firstn (S i) hs) q fzero), (@get_nat _ (firstn (S i) ls) q fzero) in E by (rewrite firstn_length; lia). cbn [bind] in E.
  rewrite !nth_firstn_lt in E by lia. injection E as <- <-. split.
  2:{ eexists q, _. split; [exact Hq|]. split; [|split; [|reflexivity]]; [|reflexivity]. repeat split; reflexivity. }
  split; [now apply uniq_add|]. unfold bkAdd. destruct (negb (bkContains _ _)); [|exact HB].
  constructor; [|exact HB]. exists k, i, q. cbn [bkTop]. split; [lia|]. split; [exact Hbr|]. split; [exact Hq|]. repeat split; reflexivity.
Qed.
Lemma clean_trace sc b c number lst lst' : BLK sc b lst -> ob_clean c number lst = Ok lst' -> BLK sc b lst'.
Proof.
  intros [U HB] E. rewrite ob_clean_spec in E by exact U. injection E as <-. split; [now apply uniq_clean|].
  rewrite Forall_forall in *. intros bk Hb. apply filter_In in Hb as [Hb _]. apply HB.
  rewrite <- (firstn_skipn (Z.to_nat (number + 1)) lst). apply in_or_app. now left.
Qed.

(** ** equal highs and lows leave the break fields alone *)
Definition other (f : field) : Prop := f = fEQH \/ f = fEQL.
Lemma draw_keep f y from to data data' : draw f y from to data = Ok data' ->
  length data' = length data /\ forall j r', nth_error data' j = Some r' -> exists r, nth_error data j = Some r /\ forall g, g <> f -> field_of g (rVal r') = field_of g (rVal r).
Proof.
  unfold draw. intros E. destruct (Z.le_gt_cases from (to + 1)) as [Hle|Hgt].
  2:{ rewrite for_empty in E by lia. injection E as <-. split; [reflexivity|]. intros j r' H. exists r'. auto. }
  revert E. apply (@for_inv_ok _ (fun _ d => length d = length data /\ forall j r', nth_error d j = Some r' -> exists r, nth_error data j = Some r /\ forall g, g <> f -> field_of g (rVal r') = field_of g (rVal r))).
  - exact Hle.
  - split; [reflexivity|]. intros j r' H. exists r'. auto.
  - intros i d d1 Hi [Hl Hd] E. destruct (get d i) as [r|] eqn:Eg; [|discriminate]. cbn [bind] in E. apply get_ok_iff in Eg as [Gi Eg].
    rewrite set_ok in E by (unfold len; apply nth_error_Some_lt in Eg || (assert (Z.to_nat i < length d)%nat by (apply nth_error_Some; congruence)); lia).
    injection E as <-. split; [now rewrite upd_length|]. intros j r' Hj.
    assert (Li : (Z.to_nat i < length d)%nat) by (apply nth_error_Some; congruence).
    destruct (Nat.eq_dec (Z.to_nat i) j) as [<-|Hne].
    + rewrite nth_error_upd_eq in Hj by exact Li. injection Hj as <-. destruct (Hd _ _ Eg) as (r0 & H1 & H2). exists r0. split; [exact H1|].
      intros g Hg. cbn [rVal]. rewrite put_other by congruence. now apply H2.
    + rewrite nth_error_upd_ne in Hj by exact Hne. now apply Hd.
Qed.
Lemma draw_eq f y from to b data data' : other f -> draw f y from to data = Ok data' -> ROWS b data -> ROWS b data'.
Proof.
  intros Hf E [Hl HR]. destruct (draw_keep _ _ _ _ _ E) as [L K]. split; [congruence|]. intros j r' Hj hi sc ch.
  destruct (K _ _ Hj) as (r & Hr & Hg). rewrite Hg; [now apply HR|]. destruct Hf as [-> | ->]; destruct hi, sc, ch; discriminate.
Qed.
Lemma eq_step_keep ct f y i a st eqv eqx data' b : other f -> eq_step ct f y i a p st = Ok (eqv, eqx, data') -> ROWS b (snd st) -> ROWS b data'.
Proof.
  destruct st as [[prev x] data]. intros Hf E HR. cbn [snd] in HR. unfold eq_step in E. destruct (negb _).
  - destruct (ct _ _ _).
    + destruct (draw _ _ _ _ _) as [d|] eqn:Ed; [|discriminate]. cbn [bind] in E. injection E as _ _ <-. eapply draw_eq; eassumption.
    + cbn [bind] in E. injection E as _ _ <-. exact HR.
  - injection E as _ _ <-. exact HR.
Qed.

(** ** the history of the order blocks *)
Definition HIST (sc : scale) (i : nat) (lst : list Block) : Prop := blocks_after oh sw atr (OrderBlockNumber p) sc i lst.
Definition added (hi : bool) (sc : scale) (i : nat) (f : bool) (l l' : list Block) : Prop :=
  if f then exists k q b, breaks hi sc k i /\ block_candle hs ls atr (negb hi) k i q /\ block_of oh q b /\ bkTop b = negb hi /\ l' = bkAdd l b
  else l' = l /\ forall k, ~ breaks hi sc k i.
Lemma doomed_spent c b : ob_doomed c b = spent c b.
Proof. unfold ob_doomed, spent. destruct (bkTop b); cbn [negb]; rewrite ?andb_false_r, ?andb_true_r, ?orb_false_r, ?orb_false_l; reflexivity. Qed.
Lemma hist_trace sc i f1 f2 l l1 l2 l3 : HIST sc i l -> added true sc i f1 l l1 -> added false sc i f2 l1 l2 -> uniq l2 ->
  ob_clean (nth i cs fzero) (OrderBlockNumber p) l2 = Ok l3 -> HIST sc (S i) l3.
Proof.
  intros H A1 A2 U E. rewrite ob_clean_spec in E by exact U. injection E as <-.
  rewrite (filter_ext _ (fun b => negb (spent (nth i cs fzero) b))) by (intros b; now rewrite doomed_spent).
  fold (survivors oh (OrderBlockNumber p) i l2).
  assert (AD : forall b l0, (In (block_key b) (map block_key l0) /\ bkAdd l0 b = l0) \/ (~ In (block_key b) (map block_key l0) /\ bkAdd l0 b = b :: l0)).
  { intros b l0. unfold bkAdd. destruct (bkContains l0 b) eqn:C; [left|right]; (split; [|reflexivity]).
    - now apply bkContains_iff in C.
    - intros I. apply bkContains_iff in I. congruence. }
  destruct f1, f2; cbn [added] in A1, A2.
  - destruct A1 as (k1 & _ & _ & B1 & _), A2 as (k2 & _ & _ & B2 & _). destruct (one_side B1 B2).
  - destruct A1 as (k & q & b & B1 & B2 & B3 & B4 & ->). destruct A2 as [-> _]. apply (blocks_break (k := k) (q := q) (b := b) (high := true) H); auto.
  - destruct A1 as [-> _]. destruct A2 as (k & q & b & B1 & B2 & B3 & B4 & ->). apply (blocks_break (k := k) (q := q) (b := b) (high := false) H); auto.
  - destruct A1 as [-> A1], A2 as [-> A2]. apply blocks_quiet; [exact H|]. intros [] k; [apply A1|apply A2].
Qed.
Lemma survivors_nil i : survivors oh (OrderBlockNumber p) i [] = [].
Proof. unfold survivors. now rewrite firstn_nil. Qed.

(** ** the invariant *)
Record GINV (i : nat) (v : Loc) (e : Smc) : Prop := mkG {
  g_os1 : OS Long (sOs1 e) i; g_os2 : OS Short (sOs2 e) i;
  g_top : PIV true Long (i - 1) i (lTop v); g_itop : PIV true Short (i - 1) i (lITop v);
  g_btm : PIV false Long (i - 1) i (lBtm v); g_ibtm : PIV false Short (i - 1) i (lIBtm v);
  g_tr : TR Long i (lTrend v); g_itr : TR Short i (lITrend v);
  g_rows : ROWS i (sData e);
  g_bull : BLK Short i (sBullish e); g_bear : BLK Long i (sBearish e);
  g_hbull : HIST Short i (sBullish e); g_hbear : HIST Long i (sBearish e) }.

Ltac inv_bind E := match type of E with bind ?a _ = Ok _ => let x := fresh "x" in let Ex := fresh "Ex" in destruct a as [x|] eqn:Ex; [cbn [bind] in E|discriminate E] end.

Lemma bar_trace (i : nat) v e v' e' : (1 <= i < n)%nat -> (sw <= i)%nat -> GINV i v e ->
  smc_bar p oh atr (Z.of_nat i) v e = Ok (v', e') -> GINV (S i) v' e'.
Proof.
  intros Hi Hs [G1 G2 G3 G4 G5 G6 G7 G8 G9 G10 G11 G12 G13] E. pose proof Sh as (S1 & S2 & S3 & S4 & S5). unfold smc_bar in E.
  rewrite (@get_nat _ cs i fzero), (@get_nat _ hs i fzero), (@get_nat _ ls i fzero) in E by lia. cbn [bind] in E.
  rewrite (@get_nat _ (oTime oh) i 0) in E by lia. cbn [bind] in E.
  rewrite !slice_0 in E by lia. cbn [bind] in E. rewrite Hsw in E.
  assert (St : (start <= i < n)%nat) by (rewrite start_sw; lia).
  destruct (swings _ _ (Z.of_nat sw) _) as [[[top btm] os1]|] eqn:E1; [|discriminate]. cbn [bind] in E.
  destruct (swings _ _ 5 _) as [[[itop ibtm] os2]|] eqn:E2; [|discriminate]. cbn [bind] in E.
  destruct (@swings_trace Long i _ _ _ _ St G1 E1) as (N1 & N2 & O1).
  destruct (@swings_trace Short i _ _ _ _ St G2 E2) as (N3 & N4 & O2). clear E1 E2.
  pose proof (arm_trace Hi G3 N1) as P1. pose proof (arm_trace Hi G4 N3) as P2.
  pose proof (arm_trace Hi G5 N2) as P3. pose proof (arm_trace Hi G6 N4) as P4. cbn [SpecSmc2.span] in P1, P2, P3, P4. change (Z.of_nat 5) with 5 in P2, P4.
  set (pTop := arm top (Z.of_nat i - Z.of_nat sw) (lTop v)) in *. set (pITop := arm itop (Z.of_nat i - 5) (lITop v)) in *.
  set (pBtm := arm btm (Z.of_nat i - Z.of_nat sw) (lBtm v)) in *. set (pIBtm := arm ibtm (Z.of_nat i - 5) (lIBtm v)) in *.
  destruct (trail fmax top _ _ _ _) as [up upX]. destruct (trail fmin btm _ _ _ _) as [dn dnX].
  rewrite !CrossOver_b, !CrossUnder_b in E by exact Hi. cbn [bind] in E.
  change (crossb true (pvY pITop) i && pvCross pITop && negb (pvY pTop ==~ pvY pITop)) with (testb true Short pITop pTop i) in E.
  destruct (@test_trace true Short pITop pTop i Hi P2 P1) as [T2 Q2]. set (f1 := testb true Short pITop pTop i) in *.
  inv_bind E. destruct x as [pa [[da ia] la]].
  assert (R0 : ROWS' i (fun _ _ => false) (sData e)) by exact G9.
  destruct (@brk_trace true Short i f1 (lITrend v <? 0) pITop _ _ _ _ _ _ _ false _ Hi R0 eq_refl T2 (@TR_against Short i (lITrend v) true G8) Ex) as (-> & R1 & B1). clear Ex R0.
  change (crossb true (pvY pTop) i && pvCross pTop) with (testb true Long pTop pTop i) in E.
  destruct (@test_trace true Long pTop pTop i Hi P1 P1) as [T1 Q1]. set (f2 := testb true Long pTop pTop i) in *.
  inv_bind E. destruct x as [pb [[db ib] lb]].
  destruct (@brk_trace true Long i f2 (lTrend v <? 0) pTop _ _ _ _ _ _ _ false _ Hi R1 eq_refl T1 (@TR_against Long i (lTrend v) true G7) Ex) as (-> & R2 & B2). clear Ex R1.
  change (crossb false (pvY pIBtm) i && pvCross pIBtm && negb (pvY pBtm ==~ pvY pIBtm)) with (testb false Short pIBtm pBtm i) in E.
  destruct (@test_trace false Short pIBtm pBtm i Hi P4 P3) as [T4 Q4]. set (f3 := testb false Short pIBtm pBtm i) in *.
  assert (D : forall hi sc (f : bool) (w : Pivot), (if f then exists k, breaks hi sc k i /\ pvX w = Z.of_nat k /\ pvY w = price hi k else forall k, ~ breaks hi sc k i) ->
    if f then exists k, breaks hi sc k i else forall k, ~ breaks hi sc k i).
  { intros hi sc [] w Q; [|exact Q]. destruct Q as (k & Q & _). now exists k. }
  pose proof (D _ _ _ _ T2) as T2'. pose proof (D _ _ _ _ T1) as T1'. pose proof (D _ _ _ _ T4) as T4'.
  (* the short trend seen by the low tests: the high break of this candle excludes a low one *)
  inv_bind E. destruct x as [pc [[dc ic] lc]].
  assert (C3 : ((if f1 then 1 else lITrend v) >? 0) = true <-> CH false Short i \/ f1 = true).
  { cbn [CH]. pose proof (@TR_against Short i (lITrend v) false G8) as A. cbn [negb] in A. destruct f1; [cbn; tauto|]. rewrite A. intuition discriminate. }
  assert (X3 : exists d i0 l, brk oh f3 ((if f1 then 1 else lITrend v) >? 0) true (field_for false Short false) (field_for false Short true) (Z.of_nat i) (firstn (S i) hs) (firstn (S i) ls) (firstn (S i) atr) pIBtm (db, ia, la) = Ok (pc, (d, i0, l)) /\ d = dc /\ i0 = ic /\ l = lc) by (do 3 eexists; split; [exact Ex|auto]).
  assert (B3 : pc = disarm f3 pIBtm /\ ROWS' i (fun h s => match h, s with false, Long => false | _, _ => true end) dc /\
    (if f3 then obCoord oh true (Z.of_nat i) (pvX pIBtm) (firstn (S i) hs) (firstn (S i) ls) (firstn (S i) atr) ia la = Ok (ic, lc) else ic = ia /\ lc = la)).
  { assert (CC : f3 = true -> (((if f1 then 1 else lITrend v) >? 0) = true <-> CH false Short i)).
    { intros F3. rewrite C3. split; [|tauto]. intros [|F1]; [assumption|exfalso]. rewrite F3 in T4'. rewrite F1 in T2'.
      destruct T2' as (k1 & A1), T4' as (k2 & A2). exact (one_side A1 A2). }
    destruct f3.
    - destruct (@brk_trace false Short i true _ pIBtm _ _ _ _ _ _ _ true _ Hi R2 eq_refl T4 (CC eq_refl) Ex) as (-> & R3 & B3).
      split; [reflexivity|]. split; [|exact B3]. destruct R3 as [R3 R3']. split; [exact R3|]. intros j r Hj hi sc ch. specialize (R3' j r Hj hi sc ch). destruct hi, sc; exact R3'.
    - unfold brk in Ex. injection Ex as <- <- <- <-. split; [reflexivity|]. split; [|auto]. destruct R2 as [R2 R2']. split; [exact R2|].
      intros j r Hj hi sc ch. specialize (R2' j r Hj hi sc ch). destruct hi, sc; try exact R2'. cbn in R2'.
      eapply shown_ext; [|exact R2']. intros k' i'. unfold upto. split; intros [HP Hb]; (split; [exact HP|]); [lia|].
      destruct (Nat.eq_dec i' i) as [->|]; [exfalso; destruct HP as [HP _]; exact (T4 _ HP)|lia]. }
  clear X3 Ex R2. destruct B3 as (-> & R3 & B3).
  change (crossb false (pvY pBtm) i && pvCross pBtm) with (testb false Long pBtm pBtm i) in E.
  destruct (@test_trace false Long pBtm pBtm i Hi P3 P3) as [T3 Q3]. set (f4 := testb false Long pBtm pBtm i) in *. pose proof (D _ _ _ _ T3) as T3'.
  pose proof (@TR_step Short i _ f1 f3 G8 T2' T4') as TS. pose proof (@TR_step Long i _ f2 f4 G7 T1' T3') as TL. cbv beta in TS, TL.
  inv_bind E. destruct x as [pd [[dd id] ld]].
  destruct (@brk_trace false Long i f4 _ pBtm _ _ _ _ _ _ _ true _ Hi R3 eq_refl T3 (TR_rising TS) Ex) as (-> & R4 & B4). clear Ex R3.
  assert (R5 : ROWS (S i) dd).
  { destruct R4 as [R4 R4']. split; [exact R4|]. intros j r Hj hi sc ch. specialize (R4' j r Hj hi sc ch). destruct hi, sc; exact R4'. }
  clear R4.
  (* blocks *)
  assert (BK : forall hi sc f w ix l ix' l', (if f : bool then exists k, breaks hi sc k i /\ pvX w = Z.of_nat k /\ pvY w = price hi k else forall k, ~ breaks hi sc k i) ->
     (if f then obCoord oh (negb hi) (Z.of_nat i) (pvX w) (firstn (S i) hs) (firstn (S i) ls) (firstn (S i) atr) ix l = Ok (ix', l') else ix' = ix /\ l' = l) ->
     BLK sc (S i) l -> BLK sc (S i) l' /\ added hi sc i f l l').
  { intros hi sc [] w ix l ix' l' T B Hl; [|destruct B as [_ ->]; split; [exact Hl|split; [reflexivity|exact T]]]. destruct T as (k & HB & HX & _). rewrite HX in B.
    apply (@obCoord_trace sc) in B as [Y1 (q & b & Y2 & Y3 & Y4 & Y5)]; [|exact Hi| |exact Hl|now rewrite negb_involutive].
    - split; [exact Y1|]. exists k, q, b. auto.
    - destruct HB as [((_ & H & _) & _) _]. lia. }
  pose proof (BK true Short f1 pITop _ _ _ _ T2 B1 (BLK_mono (Nat.le_succ_diag_r i) G10)) as [L1 A1].
  pose proof (BK true Long f2 pTop _ _ _ _ T1 B2 (BLK_mono (Nat.le_succ_diag_r i) G11)) as [L2 A2].
  pose proof (BK false Short f3 pIBtm _ _ _ _ T4 B3 L1) as [L3 A3].
  pose proof (BK false Long f4 pBtm _ _ _ _ T3 B4 L2) as [L4 A4]. clear BK B1 B2 B3 B4.
  inv_bind E. pose proof (@clean_trace Short (S i) _ _ _ _ L3 Ex) as L5. pose proof (@hist_trace Short i f1 f3 _ _ _ _ G12 A1 A3 (proj1 L3) Ex) as H5. clear Ex.
  inv_bind E. pose proof (@clean_trace Long (S i) _ _ _ _ L4 Ex) as L6. pose proof (@hist_trace Long i f2 f4 _ _ _ _ G13 A2 A4 (proj1 L4) Ex) as H6. clear Ex.
  inv_bind E. destruct x1 as [[[[eqT eqTX] eqB] eqBX] de].
  assert (R6 : ROWS (S i) de).
  { destruct (EqEnable p); [|injection Ex as _ _ _ _ <-; exact R5].
    inv_bind Ex. inv_bind Ex. inv_bind Ex. inv_bind Ex. inv_bind Ex. inv_bind Ex. destruct x6 as [[? ?] d6]. inv_bind Ex. destruct x6 as [[? ?] d7].
    injection Ex as _ _ _ _ <-. eapply eq_step_keep; [now right|eassumption|]. cbn [snd]. eapply eq_step_keep; [now left|eassumption|]. exact R5. }
  clear Ex. inv_bind E. inv_bind E. inv_bind E. inv_bind E. injection E as <- <-.
  apply get_ok_iff in Ex1 as [_ Er]. rewrite Nat2Z.id in Er. destruct R6 as [R6 R6'].
  rewrite set_ok in Ex2 by (unfold len; lia). injection Ex2 as <-. rewrite Nat2Z.id.
  constructor; cbn [sData sBullish sBearish sOs1 sOs2 lTop lITop lBtm lIBtm lTrend lITrend]; try (replace (S i - 1)%nat with i by lia); try assumption.
  split; [now rewrite upd_length|]. intros j r Hj hi sc ch. destruct (Nat.eq_dec i j) as [<-|Hne].
  - rewrite nth_error_upd_eq in Hj by lia. injection Hj as <-. cbn [rVal]. exact (R6' _ _ Er hi sc ch).
  - rewrite nth_error_upd_ne in Hj by exact Hne. exact (R6' _ _ Hj hi sc ch).
Qed.

Lemma turn_late hi sc k : turn hi sc k -> (sw <= k + span sc)%nat.
Proof. intros [[H _] _]. rewrite start_sw in H. exact H. Qed.
Lemma breaks_late hi sc k i : breaks hi sc k i -> (sw <= i)%nat.
Proof. intros [((HT & HB & _) & _) _]. pose proof (turn_late HT). lia. Qed.
Lemma hist_skip sc i l : (i < sw)%nat -> BLK sc i l -> HIST sc i l -> HIST sc (S i) l.
Proof.
  intros Hi [_ HB] H. destruct l as [|b l].
  - rewrite <- (survivors_nil i). apply blocks_quiet; [exact H|]. intros hi k HK. pose proof (breaks_late HK). lia.
  - destruct (Forall_inv HB) as (k & i' & q & Hi' & HK & _). pose proof (breaks_late HK). lia.
Qed.
Lemma GINV_skip i v v1 e : (i < sw)%nat -> lTop v1 = lTop v -> lITop v1 = lITop v -> lBtm v1 = lBtm v -> lIBtm v1 = lIBtm v ->
  lTrend v1 = lTrend v -> lITrend v1 = lITrend v -> GINV i v e -> GINV (S i) v1 e.
Proof.
  intros Hi E1 E2 E3 E4 E5 E6 [G1 G2 G3 G4 G5 G6 G7 G8 G9 G10 G11 G12 G13].
  assert (A : forall sc os, OS sc os i -> OS sc os (S i)).
  { intros sc os H. assert (X : forall m, (m <= sw)%nat -> ~ LL sc m) by (intros m Hm (k2 & H1 & [H2 _] & _); rewrite start_sw in H2; lia).
    destruct H as [[_ H]|[-> _]]; [destruct (X i ltac:(lia) H)|]. right. split; [reflexivity|]. apply X. lia. }
  assert (B : forall hi sc w, PIV hi sc (i - 1) i w -> PIV hi sc (S i - 1) (S i) w).
  { intros hi sc w [[-> H]|(k & (HT & HB & _) & _)]; [|pose proof (turn_late HT); lia].
    left. split; [reflexivity|]. intros k HT. pose proof (turn_late HT). lia. }
  assert (C : forall sc t, TR sc i t -> TR sc (S i) t).
  { intros sc t [[-> H]|(h & k0 & i0 & H0 & HB & _)]; [|pose proof (breaks_late HB); lia].
    left. split; [reflexivity|]. intros hi k i' Hi' HB. pose proof (breaks_late HB). lia. }
  constructor; rewrite ?E1, ?E2, ?E3, ?E4, ?E5, ?E6; auto.
  - destruct G9 as [Hl HR]. split; [exact Hl|]. intros j r Hj hi sc ch. eapply shown_ext; [|exact (HR _ _ Hj hi sc ch)].
    intros k i'. unfold upto. split; intros [H1 H2]; (split; [exact H1|]); [lia|]. destruct H1 as [HB _]. pose proof (breaks_late HB). lia.
  - apply BLK_mono with i; [lia|exact G10].
  - apply BLK_mono with i; [lia|exact G11].
  - apply (@hist_skip Short i _ Hi G10 G12).
  - apply (@hist_skip Long i _ Hi G11 G13).
Qed.
Lemma step_trace_all (i : nat) v e v' e' : (1 <= i < n)%nat -> GINV i v e -> smc_step p oh atr (Z.of_nat i) (v, e) = Ok (v', e') -> GINV (S i) v' e'.
Proof.
  intros Hi G E. pose proof Sh as (S1 & S2 & S3 & S4 & S5). unfold smc_step in E.
  rewrite (@get_nat _ cs i fzero), (@get_nat _ hs i fzero), (@get_nat _ ls i fzero) in E by lia. cbn [bind] in E.
  rewrite (@get_nat _ (oTime oh) i 0) in E by lia. cbn [bind] in E. rewrite Hsw in E.
  set (v1 := mkLoc _ _ _ _ _ _ _ _ _ _ _ _ _ _) in E.
  destruct (Z.ltb_spec (Z.of_nat i) (Z.of_nat sw)).
  - injection E as <- <-. apply (@GINV_skip i v v1 e); try reflexivity; [lia|exact G].
  - eapply bar_trace; [exact Hi|lia| |exact E]. destruct G; constructor; assumption.
Qed.
(** ** trailing extremes *)
Local Notation extreme_since := (extreme_since hs ls).
Definition EXT (hi : bool) (i : nat) (u : F) (x : Z) : Prop :=
  forall k, latest hi Long k (i - 1) -> exists q, x = Z.of_nat q /\ extreme_since hi k i q u.
Lemma price_nn hi q : (q < n)%nat -> nn (price hi q).
Proof. intros Hq. now apply pos_nn, price_pos. Qed.
(** in both directions *)
Lemma extreme_better hi k e x y : (e <= n)%nat -> (extreme_since hi k e x y <-> (k <= x < e)%nat /\ (y ==~ price hi x) = true /\
  (forall q, (k <= q < e)%nat -> better hi (price hi q) (price hi x) = false) /\ (forall q, (x < q < e)%nat -> better hi (price hi x) (price hi q) = true)).
Proof. intros He. unfold SpecSmc2.extreme_since, better. destruct hi; tauto. Qed.
Lemma swing_beats hi k q : swing hi Long k -> (k < q <= k + sw)%nat -> better hi (price hi k) (price hi q) = true.
Proof.
  intros Hs Hq. pose proof (@swing_bound hi Long k Hs) as Hb. cbn [SpecSmc2.span] in Hb.
  assert (N1 : nn (price hi k)) by (apply price_nn; lia). assert (N2 : nn (price hi q)) by (apply price_nn; lia).
  unfold SpecSmc2.swing in Hs. destruct hi; cbn [better].
  - destruct Hs as [_ H]. specialize (H q Hq). rewrite (ol_le O) in H by assumption. now apply negb_false_iff in H.
  - destruct Hs as [[_ H] _]. specialize (H q Hq). rewrite (ol_le O) in H by assumption. now apply negb_false_iff in H.
Qed.
Lemma better_asym top a b : better top a b = true -> better top b a = false.
Proof. destruct top; cbn [better]; apply (lt_excl O). Qed.
Lemma better_irrefl top a : better top a a = false.
Proof. destruct top; apply (flt_irrefl O). Qed.
Lemma trail_trace hi (i : nat) y u x u' x' : (sw <= i < n)%nat -> news hi Long i y -> EXT hi i u x ->
  trail (pick hi) y (Z.of_nat i - Z.of_nat sw) (price hi i) (Z.of_nat i) (u, x) = (u', x') -> EXT hi (S i) u' x'.
Proof.
  intros Hi HN HE ET k Hk. replace (S i - 1)%nat with i in Hk by lia. unfold trail in ET.
  assert (Ni : nn (price hi i)) by (apply price_nn; lia).
  assert (X : exists t q, (if negb (y ==~ fzero) then (y, Z.of_nat i - Z.of_nat sw) else (u, x)) = (t, Z.of_nat q) /\ extreme_since hi k i q t).
  { destruct HN as [(k0 & H0 & HT & ->)|[HN ->]].
    - pose proof (turn_bound HT) as Hb. cbn [SpecSmc2.span] in *. destruct (@pos_neq (price hi k0)) as [Z0 _]; [apply price_pos; lia|]. rewrite Z0. cbn [negb].
      assert (k = k0) as ->. { apply (@latest_unique hi Long k k0 i Hk). split; [exact HT|]. cbn [SpecSmc2.span]. split; [lia|]. intros; lia. }
      exists (price hi k0), k0. split; [f_equal; lia|]. apply extreme_better; [lia|]. split; [lia|]. split; [apply (feq_refl O), price_nn; lia|].
      destruct HT as [[_ Hs] _]. split; intros q Hq.
      + destruct (Nat.eq_dec q k0) as [->|]; [apply better_irrefl|]. apply better_asym, swing_beats; [exact Hs|lia].
      + apply swing_beats; [exact Hs|lia].
    - rewrite (feq_zero O). cbn [negb]. destruct Hk as (HT & HB & HM). cbn [SpecSmc2.span] in *.
      assert (Hk' : (k + sw <> i)%nat) by (intros Q; exact (HN k Q HT)).
      destruct (HE k) as (q & -> & Hq). { split; [exact HT|]. cbn [SpecSmc2.span]. split; [lia|]. intros k' H1 H2. apply HM; [exact H1|lia]. }
      exists u, q. auto. }
  destruct X as (t & q & Et & HX). rewrite Et in ET. cbn [fst snd] in ET. injection ET as <- <-.
  apply extreme_better in HX as (X1 & X2 & X3 & X4); [|lia].
  assert (Nt : nn t) by now apply (feq_nn O) in X2. assert (Nq : nn (price hi q)) by (apply price_nn; lia).
  apply (@better_eq hi) in X2 as X2'; [|exact Nt|exact Nq]. destruct X2' as [Y1 Y2].
  pose proof (pick_l hi (price hi i) t) as P1. pose proof (pick_r hi (price hi i) t) as P2.
  assert (Np : nn (pick hi (price hi i) t)) by (destruct (pick_in hi (price hi i) t) as [-> | ->]; assumption).
  destruct (pick hi (price hi i) t ==~ price hi i) eqn:Q.
  - exists i. split; [reflexivity|]. apply extreme_better; [lia|]. split; [lia|]. split; [exact Q|]. split; [|intros; lia].
    intros q' Hq'. destruct (Nat.eq_dec q' i) as [->|]; [apply better_irrefl|].
    apply (@better_eq hi) in Q as [Q1 Q2]; [|exact Np|exact Ni]. assert (Nq' : nn (price hi q')) by (apply price_nn; lia).
    apply better_ntrans with (price hi q); auto; [apply X3; lia|]. apply better_ntrans with t; auto. apply better_ntrans with (pick hi (price hi i) t); auto.
  - assert (Ep : pick hi (price hi i) t = t). { destruct (pick_in hi (price hi i) t) as [P|P]; [|exact P]. rewrite P, (feq_refl O) in Q by exact Ni. discriminate. }
    rewrite Ep in *. exists q. split; [reflexivity|]. apply extreme_better; [lia|]. split; [lia|]. split; [exact X2|].
    assert (B : better hi (price hi q) (price hi i) = true).
    { destruct (better hi (price hi q) (price hi i)) eqn:B; [reflexivity|exfalso].
      assert (C : better hi t (price hi i) = false) by (apply better_ntrans with (price hi q); assumption).
      assert (feq t (price hi i) = true) by (apply (@better_eq hi); auto). congruence. }
    split; intros q' Hq'; destruct (Nat.eq_dec q' i) as [->|].
    + now apply better_asym. + apply X3. lia. + exact B. + apply X4. lia.
Qed.

(** what the strong and weak fields hold after candle [i] *)
Definition MARKS (v : Loc) (e : Smc) : Prop :=
  let at_ x := unix (nth (Z.to_nat x) (oTime oh) 0) in
  (if lTrend v <? 0 then sStrongHigh e else sWeakHigh e) = mkRow (at_ (lUpX v)) (lUp v) /\
  (if lTrend v >? 0 then sStrongLow e else sWeakLow e) = mkRow (at_ (lDnX v)) (lDn v).
Lemma bar_ext (i : nat) v e v' e' : (1 <= i < n)%nat -> (sw <= i)%nat -> GINV i v e -> EXT true i (lUp v) (lUpX v) -> EXT false i (lDn v) (lDnX v) ->
  smc_bar p oh atr (Z.of_nat i) v e = Ok (v', e') -> EXT true (S i) (lUp v') (lUpX v') /\ EXT false (S i) (lDn v') (lDnX v') /\ MARKS v' e'.
Proof.
  intros Hi Hs [G1 G2 _ _ _ _ _ _ _ _ _] X1 X2 E. pose proof Sh as (S1 & S2 & S3 & S4 & S5). unfold smc_bar in E.
  rewrite (@get_nat _ cs i fzero), (@get_nat _ hs i fzero), (@get_nat _ ls i fzero) in E by lia. cbn [bind] in E.
  rewrite (@get_nat _ (oTime oh) i 0) in E by lia. cbn [bind] in E.
  rewrite !slice_0 in E by lia. cbn [bind] in E. rewrite Hsw in E.
  assert (St : (start <= i < n)%nat) by (rewrite start_sw; lia).
  destruct (swings _ _ (Z.of_nat sw) _) as [[[top btm] os1]|] eqn:E1; [|discriminate]. cbn [bind] in E.
  destruct (swings _ _ 5 _) as [[[itop ibtm] os2]|]; [|discriminate]. cbn [bind] in E.
  destruct (@swings_trace Long i _ _ _ _ St G1 E1) as (N1 & N2 & _). clear E1.
  destruct (trail fmax top _ _ _ _) as [up upX] eqn:EU. destruct (trail fmin btm _ _ _ _) as [dn dnX] eqn:ED.
  apply (@trail_trace true i) in EU; [|lia|exact N1|exact X1]. apply (@trail_trace false i) in ED; [|lia|exact N2|exact X2].
  inv_bind E. inv_bind E. destruct x0 as [? [[? ?] ?]]. inv_bind E. inv_bind E. destruct x1 as [? [[? ?] ?]].
  inv_bind E. inv_bind E. destruct x2 as [? [[? ?] ?]]. inv_bind E. inv_bind E. destruct x3 as [? [[? ?] ?]].
  inv_bind E. inv_bind E. inv_bind E. destruct x5 as [[[[? ?] ?] ?] ?]. inv_bind E. inv_bind E. inv_bind E. inv_bind E.
  injection E as <- <-. cbn [lUp lUpX lDn lDnX]. split; [exact EU|]. split; [exact ED|].
  unfold MARKS. cbn [sStrongHigh sWeakHigh sStrongLow sWeakLow lTrend lUp lUpX lDn lDnX].
  assert (TI : forall z t, time_in (oTime oh) z = Ok t -> t = unix (nth (Z.to_nat z) (oTime oh) 0)).
  { intros zz tt0 Q. unfold time_in in Q. destruct (get (oTime oh) zz) as [t0|] eqn:Eg; [|discriminate]. cbn [bind] in Q. injection Q as <-.
    apply get_ok_iff in Eg as [_ Eg]. now rewrite (nth_error_nth _ _ 0 Eg). }
  repeat match goal with H : time_in (oTime oh) _ = Ok _ |- _ => apply TI in H; rewrite <- H; clear H end.
  split; match goal with |- (if ?b then _ else _) = _ => destruct b end; reflexivity.
Qed.
Definition AINV (i : nat) (v : Loc) (e : Smc) : Prop :=
  GINV i v e /\ EXT true i (lUp v) (lUpX v) /\ EXT false i (lDn v) (lDnX v) /\ ((sw < i)%nat -> MARKS v e).
Lemma step_all (i : nat) v e v' e' : (1 <= i < n)%nat -> AINV i v e -> smc_step p oh atr (Z.of_nat i) (v, e) = Ok (v', e') -> AINV (S i) v' e'.
Proof.
  intros Hi (G & X1 & X2 & M) E. pose proof (step_trace_all Hi G E) as G'. split; [exact G'|].
  pose proof Sh as (S1 & S2 & S3 & S4 & S5). unfold smc_step in E.
  rewrite (@get_nat _ cs i fzero), (@get_nat _ hs i fzero), (@get_nat _ ls i fzero) in E by lia. cbn [bind] in E.
  rewrite (@get_nat _ (oTime oh) i 0) in E by lia. cbn [bind] in E. rewrite Hsw in E.
  set (v1 := mkLoc _ _ _ _ _ _ _ _ _ _ _ _ _ _) in E.
  destruct (Z.ltb_spec (Z.of_nat i) (Z.of_nat sw)).
  - injection E as <- <-. split; [|split; [|intros; lia]]; intros k (HT & HB & _); pose proof (turn_late HT); lia.
  - assert (G1 : GINV i v1 e) by (destruct G; constructor; assumption).
    assert (K : forall hi u x z, EXT hi i u x -> EXT hi i (if u ==~ fzero then z else u) x).
    { intros hi u x z HX k Hk. destruct (HX k Hk) as (q & -> & Hq). exists q. split; [reflexivity|].
      destruct (u ==~ fzero) eqn:Q; [exfalso|exact Hq]. destruct Hq as (A & B & _).
      assert (P0 : (fzero <~ price hi q) = true) by (apply price_pos; lia).
      destruct (@feq_nn N O _ _ Q) as [C1 C2]. destruct (@feq_nn N O _ _ B) as [_ C3]. apply (feq_le O) in Q as [Q1 Q2]; [|assumption|assumption]. apply (feq_le O) in B as [B1 B2]; [|assumption|assumption].
      assert (D : le (price hi q) fzero) by (apply (@le_trans N O _ u _); assumption). unfold le in D. congruence. }
    destruct (@bar_ext i v1 e v' e' Hi ltac:(lia) G1 (K true _ _ _ X1) (K false _ _ _ X2) E) as (Y1 & Y2 & Y3). auto.
Qed.
Lemma loop_all v e : (1 <= n)%nat ->
  for_ 1 (len cs) (smc_step p oh atr) (loc0, mkSmc (repeat (mkRow zero_time smc_zero) n) [] [] 0 0 0 0 sw_zero sw_zero sw_zero sw_zero) = Ok (v, e) -> AINV n v e.
Proof.
  intros Hn E. assert (S4 : length cs = n) by apply Sh. unfold len in E. rewrite S4 in E.
  apply (@for_inv_ok _ (fun z (s : Loc * Smc) => AINV (Z.to_nat z) (fst s) (snd s)) 1 (Z.of_nat n)) in E; [now rewrite Nat2Z.id in E|lia| |].
  - cbn [fst snd]. change (Z.to_nat 1) with 1%nat. split; [|split; [|split; [|intros; lia]]].
    2,3: intros k (HT & HB & _); pose proof (turn_late HT); lia.
    assert (X : forall hi sc k, turn hi sc k -> (0 < k + span sc)%nat) by (intros hi sc k HT; pose proof (turn_late HT); lia).
    assert (Y : forall hi sc k i', (i' < 1)%nat -> ~ breaks hi sc k i') by (intros hi sc k i' Hi' HB; pose proof (breaks_late HB); lia).
    assert (Z1 : forall sc, ~ LL sc 1) by (intros sc (k2 & H1 & [H2 _] & _); rewrite start_sw in H2; lia).
    constructor; cbn [sData sBullish sBearish sOs1 sOs2 loc0 lTop lITop lBtm lIBtm lTrend lITrend];
      try (right; split; [reflexivity|apply Z1]); try (left; split; [reflexivity|]; intros; eapply X; eassumption);
      try (left; split; [reflexivity|]; intros hi0 k0 i0 H0; apply Y; exact H0); try (split; constructor);
      try (rewrite <- (survivors_nil 0); apply blocks_quiet; [apply blocks_start|]; intros hi0 k0; apply Y; lia).
    split; [apply repeat_length|]. intros j r Hj hi sc ch. apply nth_error_In, repeat_spec in Hj as ->. right. split; [destruct hi, sc, ch; reflexivity|].
    intros k i [[HB _] Hi] _. exact (Y _ _ _ _ Hi HB).
  - intros i [v0 e0] [v1 e1] Hi G E1. cbn [fst snd] in *. replace (Z.to_nat (i + 1)) with (S (Z.to_nat i)) by lia.
    eapply step_all; [lia|exact G|]. rewrite Z2Nat.id by lia. exact E1.
Qed.
End Trace.
