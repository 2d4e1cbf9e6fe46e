(** * PropInd5: properties C42 (RSI) and C44 (KDJ). *)
From Coq Require Import Reals Lra ZArith Lia Bool List.
From Verif Require Import Base Num XReal Order FloatLaws FloatOrder FloatBounds SpecNum B64 Lits Base Containers Ta TaTools SpecTa Klines RSum XrMore
  IndBase IndTrend IndTools IndForms IndForms2 IndForms3 IndFormsSpec IndRsi IndBounds PropInd1.
Import ListNotations.
Set Implicit Arguments.

Open Scope Z_scope.
Local Notation closes := (map (fun c => cClose c)).

Lemma all_cn {N : Num} (P : F -> Prop) (g : Candle -> F) kl : Forall P (map g kl) -> forall i, (i < length kl)%nat -> P (g (cn kl i)).
Proof.
  intros H i Hi. rewrite Forall_forall in H. apply H. apply in_map. unfold cn. apply nth_In. exact Hi.
Qed.
Lemma cn_in {N : Num} kl i : (i < length kl)%nat -> nth_error kl i = Some (cn kl i).
Proof. intros Hi. now apply nth_error_nth'. Qed.

(** ** C42 *)
(** Every RSI value is a number between 0 and 100. *)
Theorem C42_range (m : Model) (p : Z) (kl : list (Candle (N := num m))) (rows : list (row (@F (num m)))) (i : nat) (r : row (@F (num m))) :
  p <= 2 ^ 51 -> Forall (price m) (closes kl) ->
  rows_of I_Rsi p kl = Ok rows -> nth_error rows i = Some r -> within m 0 100 (rVal r).
Proof.
  intros Hp Hc E Er. set (q := Z.to_nat p).
  assert (Z0 : within m 0 100 fzero).
  { apply within_iff. split; [apply (al_Z (rl_A (rnd_laws m)))|]. exists 0%R. split; [apply (rl_Z (rnd_laws m)); lia|lra]. }
  destruct (Z_lt_le_dec p 2) as [Hp2|Hp2].
  { rewrite Rsi_short in E by lia. injection E as <-. apply tab_some in Er as [_ ->]. exact Z0. }
  assert (Eq : p = Z.of_nat q) by (unfold q; lia).
  destruct (Z.lt_trichotomy (len kl) p) as [Hl|[Hl|Hl]].
  - rewrite Rsi_short in E by lia. injection E as <-. apply tab_some in Er as [_ ->]. exact Z0.
  - rewrite <- Hl, Rsi_panic in E by (unfold len in *; lia). discriminate.
  - rewrite Eq, Rsi_T in E by (unfold len in *; lia). injection E as <-. apply tab_some in Er as [Hi ->]. cbn [rVal].
    destruct (scale_of Hc) as (B & SL & HB).
    destruct (@rsiF_fb _ _ _ _ (rnd_laws m) (law14 m) q ltac:(lia) (fun i => cClose (cn kl i)) B SL i) as (v & V1 & V2).
    { intros j Hj. apply (all_cn (fun c => cClose c) kl HB). lia. }
    apply within_iff. split; [|exists v; auto].
    apply (rsiF_nng (rnd_laws m) (law14 m)); [lia|]. intros j Hj. apply price_datum. apply (all_cn (fun c => cClose c) kl Hc). lia.
Qed.
Print Assumptions C42_range.

(** Whatever the data, infinities and NaN included, no RSI value is below 0 or above 100. *)
Theorem C42_any_data (m : Model) (p : Z) (kl : list (Candle (N := num m))) (rows : list (row (@F (num m)))) (i : nat) (r : row (@F (num m))) :
  p <= 2 ^ 51 -> Forall (datum m) (closes kl) ->
  rows_of I_Rsi p kl = Ok rows -> nth_error rows i = Some r ->
  (rVal r <~ ofZ 0) = false /\ (ofZ 100 <~ rVal r) = false.
Proof.
  intros Hp Hc E Er. set (q := Z.to_nat p).
  assert (Z0 : (@fzero (num m) <~ ofZ 0) = false /\ (ofZ 100 <~ @fzero (num m)) = false).
  { unfold fzero. rewrite !(rl_lt (rnd_laws m)) by apply (al_Z (rl_A (rnd_laws m))). rewrite !(rl_Z (rnd_laws m)) by lia. cbn. rewrite !Rltb_f. lra. }
  destruct (Z_lt_le_dec p 2) as [Hp2|Hp2].
  { rewrite Rsi_short in E by lia. injection E as <-. apply tab_some in Er as [_ ->]. exact Z0. }
  assert (Eq : p = Z.of_nat q) by (unfold q; lia).
  destruct (Z.lt_trichotomy (len kl) p) as [Hl|[Hl|Hl]].
  - rewrite Rsi_short in E by lia. injection E as <-. apply tab_some in Er as [_ ->]. exact Z0.
  - rewrite <- Hl, Rsi_panic in E by (unfold len in *; lia). discriminate.
  - rewrite Eq, Rsi_T in E by (unfold len in *; lia). injection E as <-. apply tab_some in Er as [Hi ->]. cbn [rVal].
    apply (rsiF_nng (rnd_laws m) (law14 m)); [lia|]. intros j Hj. apply (all_cn (fun c => cClose c) kl Hc). lia.
Qed.
Print Assumptions C42_any_data.

(** The calculation panics exactly when there are as many candles as the period (at least two). *)
Theorem C42_panics_iff (N : Num) (p : Z) (kl : list Candle) : rows_of I_Rsi p kl = Panic <-> 2 <= p /\ p = len kl.
Proof.
  destruct (Z_lt_le_dec p 2) as [Hp|Hp]; [rewrite Rsi_short by lia; split; [discriminate|lia]|].
  destruct (Z.lt_trichotomy (len kl) p) as [Hl|[Hl|Hl]].
  - rewrite Rsi_short by lia. split; [discriminate|lia].
  - rewrite <- Hl, Rsi_panic by (unfold len in *; lia). split; [lia|reflexivity].
  - replace p with (Z.of_nat (Z.to_nat p)) at 1 by lia. rewrite Rsi_T by (unfold len in *; lia). split; [discriminate|lia].
Qed.
Print Assumptions C42_panics_iff.
Theorem C42_no_panic_refuted : ~ forall (p : Z) (kl : list (Candle (N := EX))), rows_of I_Rsi p kl <> Panic.
Proof. intros H. apply (H 3 (flat [1; 2; 3])). apply C42_panics_iff. split; [lia|reflexivity]. Qed.
Print Assumptions C42_no_panic_refuted.

(** A history that never falls gives 100, or 0 where the average gain is below 1e-14 (reported as no movement);
    a history that never rises gives 0. *)
Definition never_falls (m : Model) (xs : list (@F (num m))) (i : nat) : Prop :=
  forall j x y a b, (j < i)%nat -> nth_error xs j = Some x -> nth_error xs (S j) = Some y -> number m x a -> number m y b -> (a <= b)%R.
Definition never_rises (m : Model) (xs : list (@F (num m))) (i : nat) : Prop :=
  forall j x y a b, (j < i)%nat -> nth_error xs j = Some x -> nth_error xs (S j) = Some y -> number m x a -> number m y b -> (b <= a)%R.
Section Rise.
Variables (m : Model) (kl : list (Candle (N := num m))).
Hypothesis Hc : Forall (price m) (closes kl).
Let f := fun i => cClose (cn kl i).
Lemma at_close j : (j < length kl)%nat -> nth_error (closes kl) j = Some (f j) /\ exists a, number m (f j) a.
Proof.
  intros Hj. split; [unfold f; rewrite nth_error_map, cn_in by exact Hj; reflexivity|].
  destruct (all_cn (fun c => cClose c) kl Hc Hj) as (a & Ha & _). eauto.
Qed.
Lemma change_rd j a b : (S j < length kl)%nat -> number m (f j) a -> number m (f (S j)) b ->
  datum m (f (S j) -~ f j) /\ ext m (f (S j) -~ f j) = rd m (b - a).
Proof.
  intros Hj Ha Hb. apply number_ext in Ha as [A1 A2], Hb as [B1 B2]. split; [now apply (al_sub (rl_A (rnd_laws m)))|].
  rewrite (rl_sub (rnd_laws m)) by assumption. rewrite A2, B2. reflexivity.
Qed.
Lemma rises_of i : (i < length kl)%nat -> never_falls m (closes kl) i -> rises f i.
Proof.
  intros Hi H j Hj. destruct (@at_close j ltac:(lia)) as (E1 & a & Ha), (@at_close (S j) ltac:(lia)) as (E2 & b & Hb).
  specialize (H j _ _ a b Hj E1 E2 Ha Hb). destruct (@change_rd j a b ltac:(lia) Ha Hb) as [D1 D2].
  rewrite (rl_lt (rnd_laws m)) by (auto; apply (al_Z (rl_A (rnd_laws m)))). rewrite D2, (rl_Z (rnd_laws m)) by lia.
  rewrite <- (rd_int (rnd_laws m) 0) by lia. apply (rd_le (rnd_laws m)). lra.
Qed.
Lemma falls_of B i : ScaleLaw B (rd m) -> Forall (fb (datum m) (ext m) B (-1) 1) (closes kl) -> (i < length kl)%nat -> never_rises m (closes kl) i -> falls (ext m) f i.
Proof.
  intros SL HB Hi H j Hj. destruct (@at_close j ltac:(lia)) as (E1 & a & Ha), (@at_close (S j) ltac:(lia)) as (E2 & b & Hb).
  specialize (H j _ _ a b Hj E1 E2 Ha Hb). destruct (@change_rd j a b ltac:(lia) Ha Hb) as [D1 D2].
  assert (Q : fb (datum m) (ext m) B (-2) 2 (f (S j) -~ f j)) by (apply (diff_fb m SL); [apply (all_cn (fun c => cClose c) kl HB)|apply (all_cn (fun c => cClose c) kl HB)]; lia).
  destruct Q as (_ & r & Q & _). exists r. split; [exact Q|]. rewrite D2 in Q.
  assert (L : xlt (rd m 0) (rd m (b - a)) = false) by (apply (rd_le (rnd_laws m)); lra).
  rewrite (rd_int (rnd_laws m) 0), Q in L by lia. cbn in L. now apply Rltb_f in L.
Qed.
End Rise.
Theorem C42_never_falls (m : Model) (p : Z) (kl : list (Candle (N := num m))) (rows : list (row (@F (num m)))) (i : nat) (r : row (@F (num m))) :
  2 <= p <= 2 ^ 51 -> Forall (price m) (closes kl) -> rows_of I_Rsi p kl = Ok rows -> nth_error rows i = Some r ->
  never_falls m (closes kl) i -> number m (rVal r) 0 \/ number m (rVal r) 100.
Proof.
  intros Hp Hc E Er Hr. set (q := Z.to_nat p). assert (Eq : p = Z.of_nat q) by (unfold q; lia).
  assert (Z0 : number m fzero 0) by (apply number_ext; split; [apply (al_Z (rl_A (rnd_laws m)))|apply (rl_Z (rnd_laws m)); lia]).
  destruct (Z.lt_trichotomy (len kl) p) as [Hl|[Hl|Hl]].
  - rewrite Rsi_short in E by lia. injection E as <-. apply tab_some in Er as [_ ->]. now left.
  - rewrite <- Hl, Rsi_panic in E by (unfold len in *; lia). discriminate.
  - rewrite Eq, Rsi_T in E by (unfold len in *; lia). injection E as <-. apply tab_some in Er as [Hi ->]. cbn [rVal].
    destruct (scale_of Hc) as (B & SL & HB).
    destruct (Nat.ltb_spec i q); [left; unfold rsiF; destruct (Nat.ltb_spec i q); [exact Z0|lia]|].
    assert (D : datum m (rsiF q (fun i => cClose (cn kl i)) i)).
    { apply (rsiF_nng (rnd_laws m) (law14 m)); [lia|]. intros j Hj. apply price_datum. apply (all_cn (fun c => cClose c) kl Hc). lia. }
    rewrite !number_ext.
    destruct (@rsiF_rise _ _ _ _ (rnd_laws m) (law14 m) q ltac:(lia) (fun i => cClose (cn kl i)) B SL i) as [V|[_ V]]; auto.
    + intros j Hj. apply (all_cn (fun c => cClose c) kl HB). lia.
    + now apply rises_of.
Qed.
Print Assumptions C42_never_falls.
Theorem C42_never_rises (m : Model) (p : Z) (kl : list (Candle (N := num m))) (rows : list (row (@F (num m)))) (i : nat) (r : row (@F (num m))) :
  p <= 2 ^ 51 -> Forall (price m) (closes kl) -> rows_of I_Rsi p kl = Ok rows -> nth_error rows i = Some r ->
  never_rises m (closes kl) i -> number m (rVal r) 0.
Proof.
  intros Hp Hc E Er Hr. set (q := Z.to_nat p).
  assert (Z0 : number m fzero 0) by (apply number_ext; split; [apply (al_Z (rl_A (rnd_laws m)))|apply (rl_Z (rnd_laws m)); lia]).
  destruct (Z_lt_le_dec p 2) as [Hp2|Hp2].
  { rewrite Rsi_short in E by lia. injection E as <-. apply tab_some in Er as [_ ->]. exact Z0. }
  assert (Eq : p = Z.of_nat q) by (unfold q; lia).
  destruct (Z.lt_trichotomy (len kl) p) as [Hl|[Hl|Hl]].
  - rewrite Rsi_short in E by lia. injection E as <-. apply tab_some in Er as [_ ->]. exact Z0.
  - rewrite <- Hl, Rsi_panic in E by (unfold len in *; lia). discriminate.
  - rewrite Eq, Rsi_T in E by (unfold len in *; lia). injection E as <-. apply tab_some in Er as [Hi ->]. cbn [rVal].
    destruct (scale_of Hc) as (B & SL & HB). rewrite number_ext. split.
    { apply (rsiF_nng (rnd_laws m) (law14 m)); [lia|]. intros j Hj. apply price_datum. apply (all_cn (fun c => cClose c) kl Hc). lia. }
    apply (@rsiF_fall _ _ _ _ (rnd_laws m) (law14 m) q ltac:(lia) (fun i => cClose (cn kl i)) B SL).
    + intros j Hj. apply (all_cn (fun c => cClose c) kl HB). lia.
    + now apply falls_of with B.
Qed.
Print Assumptions C42_never_rises.

(** Exact arithmetic: a history whose every change is at least 1e-14 gives 100 from bar [p] on. *)
Section RiseX.
Local Existing Instance XR.
Open Scope R_scope.
Let e := / 100000000000000.
Variables (f : nat -> xr) (x : nat -> R) (n : nat).
Hypothesis Hf : forall j, (j <= n)%nat -> f j = Fin (x j).
Hypothesis Hx : forall j, (j < n)%nat -> x (S j) - x j >= e.
Lemma e_pos : 0 < e. Proof. unfold e. lra. Qed.
Lemma rsiA_x j : (j <= n)%nat -> exists g, fst (rsiA f j) = Fin g /\ snd (rsiA f j) = Fin 0 /\ g >= INR j * e.
Proof.
  induction j as [|j IH]; intros Hj; [exists 0; repeat split; cbn; lra|].
  destruct IH as (g & G1 & G2 & G3); [lia|]. cbn [rsiA]. rewrite !Hf, G1, G2 by lia. cbn [fsub XR xsub xadd xneg]. unfold rsi_add. cbn [flt XR ofZ xlt].
  specialize (Hx Hj). pose proof e_pos.
  unfold Rltb. destruct (Rlt_dec (x (S j) + - x j) 0); [lra|]. cbn [fst snd fadd XR xadd]. exists (g + (x (S j) + - x j)). rewrite S_INR. repeat split; lra.
Qed.
Variable p : nat.
Hypothesis Hp : (1 <= p)%nat.
Lemma P0 : 0 < IZR (Z.of_nat p). Proof. apply (IZR_lt 0). lia. Qed.
Lemma xdivp a : @fdiv XR (Fin a) (ofZ (Z.of_nat p)) = Fin (a / IZR (Z.of_nat p)).
Proof. cbn. destruct (Reqb_spec (IZR (Z.of_nat p)) 0); [pose proof P0; lra|reflexivity]. Qed.
Lemma avg_ge a : a >= IZR (Z.of_nat p) * e -> a / IZR (Z.of_nat p) >= e.
Proof. intros Ha. pose proof P0. apply Rle_ge. apply Rmult_le_reg_r with (IZR (Z.of_nat p)); [lra|]. unfold Rdiv. rewrite Rmult_assoc, Rinv_l; lra. Qed.
Lemma rsiW_x d : (p + d <= n)%nat -> exists g, fst (rsiW p f d) = Fin g /\ snd (rsiW p f d) = Fin 0 /\ g >= e.
Proof.
  pose proof P0. pose proof e_pos.
  induction d as [|d IH]; intros Hd; cbn [rsiW]; match goal with |- context [rsi_avg p ?y] => set (t := y) end.
  - destruct (@rsiA_x p) as (g & G1 & G2 & G3); [lia|]. unfold rsi_avg, t. rewrite G1, G2, !xdivp. cbn [fst snd]. rewrite INR_IZR_INZ in G3.
    exists (g / IZR (Z.of_nat p)). split; [reflexivity|]. split; [f_equal; field; lra|]. now apply avg_ge.
  - destruct IH as (g & G1 & G2 & G3); [lia|]. subst t. rewrite !Hf, G1, G2 by lia. cbn [fsub fmul XR xsub xadd xneg xmul ofZ]. rewrite minus_IZR.
    assert (Q := Hx (j := (p + d)%nat) ltac:(lia)). replace (S (p + d)) with (p + S d)%nat in Q by lia.
    unfold rsi_add. cbn [flt XR ofZ xlt]. unfold Rltb. destruct (Rlt_dec _ _); [lra|]. cbn [fst snd fadd XR xadd]. unfold rsi_avg. cbn [fst snd]. rewrite !xdivp.
    eexists. split; [reflexivity|]. split; [f_equal; field; lra|]. apply avg_ge.
    assert (1 <= IZR (Z.of_nat p)) by (apply IZR_le; lia). nra.
Qed.
Lemma rsiF_x i : (p <= i <= n)%nat -> rsiF p f i = Fin 100.
Proof.
  intros Hi. unfold rsiF. destruct (Nat.ltb_spec i p); [lia|]. destruct (@rsiW_x (i - p)) as (g & G1 & G2 & G3); [lia|]. rewrite G1, G2. pose proof e_pos.
  unfold rsi_out. cbn [fadd XR xadd flt lit xlt]. rewrite Rplus_0_r. unfold Rltb at 2. destruct (Rlt_dec g (1 / 100000000000000)) as [Hlt|_]; [unfold e in *; lra|].
  rewrite andb_false_r. cbn [negb fdiv XR xdiv fmul ofZ]. destruct (Reqb_spec g 0); [lra|]. cbn [xmul]. f_equal. field. lra.
Qed.
End RiseX.
Theorem C42_rising_is_100 (p : Z) (kl : list (Candle (N := XR))) (xs : list R) (rows : list (row xr)) (i : nat) (r : row xr) :
  2 <= p -> closes kl = map Fin xs -> rows_of I_Rsi p kl = Ok rows ->
  (forall j a b, (j < i)%nat -> nth_error xs j = Some a -> nth_error xs (S j) = Some b -> (b - a >= / 100000000000000)%R) ->
  (Z.to_nat p <= i)%nat -> (p < len kl) -> nth_error rows i = Some r -> rVal r = Fin 100.
Proof.
  intros Hp Hc E Hx Hi Hl Er. replace p with (Z.of_nat (Z.to_nat p)) in E by lia. rewrite Rsi_T in E by (unfold len in *; lia).
  injection E as <-. apply tab_some in Er as [Li ->]. cbn [rVal].
  assert (HL : length xs = length kl) by (rewrite <- (map_length Fin xs), <- Hc; apply map_length).
  assert (V : forall j, (j < length kl)%nat -> cClose (cn kl j) = Fin (nth j xs 0%R)).
  { intros j Hj. assert (Q : nth_error (closes kl) j = Some (cClose (cn kl j))) by (rewrite nth_error_map, cn_in by exact Hj; reflexivity).
    rewrite Hc, nth_error_map, (nth_error_nth' _ 0%R) in Q by lia. cbn in Q. congruence. }
  apply rsiF_x with (x := fun j => nth j xs 0%R) (n := i); [..|lia|lia].
  - intros j Hj. apply V. lia.
  - intros j Hj. apply (Hx j); [exact Hj|apply nth_error_nth'; lia|apply nth_error_nth'; lia].
Qed.
Print Assumptions C42_rising_is_100.
(** a window with gains only is not enough: earlier losses still count *)
Theorem C42_rising_window_refuted : rmap (map (fun r => rVal r <~ fz 100)) (rows_of (N := EX) I_Rsi 2 (flat [10; 5; 6; 7; 8])) = Ok [true; true; true; true; true].
Proof. vm_compute. reflexivity. Qed.
Print Assumptions C42_rising_window_refuted.
Example C42_hyp : Forall (price (Float64 ex_lib)) (closes (flat [10; 12; 11; 15; 14])) /\
  rmap (map (fun r => (rVal r <~ fz 91) && (fz 50 <~ rVal r))) (rows_of (N := EX) I_Rsi 2 (flat [10; 12; 11; 15; 14])) = Ok [false; false; true; true; true] /\
  rmap (map (fun r => rVal r ==~ fz 100)) (rows_of (N := EX) I_Rsi 2 (flat [10; 12; 13; 15; 17])) = Ok [false; false; true; true; true].
Proof.
  split; [|split; vm_compute; reflexivity]. repeat constructor; apply (@price_Z (Float64 ex_lib)); lia.
Qed.

(** ** C44 *)
(** A well-formed candle: low, high and close are prices, low <= close <= high. *)
Definition sane (m : Model) (c : Candle (N := num m)) : Prop :=
  price m (cLow c) /\ price m (cHigh c) /\ price m (cClose c) /\
  exists l h x, number m (cLow c) l /\ number m (cHigh c) h /\ number m (cClose c) x /\ (l <= x <= h)%R.

Lemma Kdj_none {N : Num} (p : Z) kl : p <= 0 -> rows_of I_Kdj p kl = Ok (tab (length kl) (fun i => mkRow (tm kl i) (mkKdjV (ofZ 0) (ofZ 50) (ofZ 50) (kdj_j (ofZ 50) (ofZ 50))))).
Proof.
  intros Hp. T_start I_Kdj kdj_calc. unfold kdj_kd. rewrite len_tab, make_tab. cbn [bind].
  set (g := fun _ : nat => (@ofZ N 0, @ofZ N 50, @ofZ N 50)). rewrite <- (@partial_0 _ _ g).
  match goal with |- context [for_ 0 ?k ?b ?s] => change (for_ 0 k b s) with (for_ (Z.of_nat 0) k b s) end.
  set (n := length kl).
  rewrite (@for_nat _ (fun i => (tab i (fun j => cLow (cn kl j)), tab i (fun j => cHigh (cn kl j)), partial (fzero, fzero, fzero) g n i)));
    [cbn [bind]|unfold n; lia|reflexivity|].
  - rewrite partial_full. unfold len; rewrite ?tab_length. unfold n.
    rewrite (@make_rows_T _ _ _ _ _ _ _ _ (fun _ => mkKdjV (ofZ 0) (ofZ 50) (ofZ 50) (kdj_j (ofZ 50) (ofZ 50))) eq_refl eq_refl); [reflexivity|intros; now apply time_at_T|].
    intros i Hi. rewrite get_tab by lia. reflexivity.
  - intros i Hi. rewrite !get_tab by lia. cbn [bind]. rewrite <- !tab_S, len_tab.
    destruct (Z.eqb_spec p (Z.of_nat (S i))); [lia|]. rewrite partial_set by (lia || reflexivity). reflexivity.
Qed.
(** The calculation panics exactly for period 1. *)
Theorem C44_panics_iff (N : Num) (p : Z) (kl : list Candle) : rows_of I_Kdj p kl = Panic <-> p = 1 /\ kl <> [].
Proof.
  destruct (Z_lt_le_dec p 1); [rewrite Kdj_none by lia; split; [discriminate|lia]|].
  destruct (Z.eq_dec p 1) as [->|Hne].
  - split; [intros H; split; [reflexivity|intros ->; discriminate H]|intros [_ H]; now apply Kdj_panic].
  - replace p with (Z.of_nat (Z.to_nat p)) at 1 by lia. rewrite Kdj_T by lia. split; [discriminate|lia].
Qed.
Print Assumptions C44_panics_iff.
Theorem C44_no_panic_refuted : ~ forall (p : Z) (kl : list (Candle (N := EX))), 1 <= p -> rows_of I_Kdj p kl <> Panic.
Proof. intros H. apply (H 1 (flat [5; 6])); [lia|]. apply C44_panics_iff. split; [reflexivity|discriminate]. Qed.
Print Assumptions C44_no_panic_refuted.

Section KdjFacts.
Variables (m : Model) (kl : list (Candle (N := num m))).
Hypothesis HS : Forall (sane m) kl.
Lemma sane_cn i : (i < length kl)%nat -> sane m (cn kl i).
Proof. intros Hi. rewrite Forall_forall in HS. apply HS. apply nth_error_In with i. now apply cn_in. Qed.
Lemma price_good (x : @F (num m)) : price m x -> goodv m x.
Proof. intros Hx. apply goodv_nan; [now apply price_datum|now apply price_nan]. Qed.
Lemma num_ngt (x y : @F (num m)) a b : number m x a -> number m y b -> (a <= b)%R -> ngt (ext m) x y.
Proof. intros Ha Hb Hab. apply number_ext in Ha as [_ Ha], Hb as [_ Hb]. unfold ngt. rewrite Ha, Hb. cbn. now apply Rltb_f. Qed.
Lemma sane_good i : (i < length kl)%nat -> goodv m (cLow (cn kl i)) /\ goodv m (cHigh (cn kl i)) /\ goodv m (cClose (cn kl i)) /\
  ngt (ext m) (cLow (cn kl i)) (cClose (cn kl i)) /\ ngt (ext m) (cClose (cn kl i)) (cHigh (cn kl i)).
Proof.
  intros Hi. destruct (sane_cn Hi) as (P1 & P2 & P3 & l & h & x & N1 & N2 & N3 & H). repeat split; try (now apply price_good).
  - apply num_ngt with l x; auto. lra.
  - apply num_ngt with x h; auto. lra.
Qed.
Lemma sane_prices : Forall (price m) (map (fun c => cLow c) kl ++ map (fun c => cHigh c) kl ++ map (fun c => cClose c) kl).
Proof.
  apply Forall_app. split; [|apply Forall_app; split]; apply Forall_map; (eapply Forall_impl; [|exact HS]); intros c (P1 & P2 & P3 & _); assumption.
Qed.
Lemma sane_fb : exists B, ScaleLaw B (rd m) /\ forall i, (i < length kl)%nat ->
  fb (datum m) (ext m) B (-1) 1 (cLow (cn kl i)) /\ fb (datum m) (ext m) B (-1) 1 (cHigh (cn kl i)) /\ fb (datum m) (ext m) B (-1) 1 (cClose (cn kl i)).
Proof.
  destruct (scale_of sane_prices) as (B & SL & HB). apply Forall_app in HB as [H1 HB]. apply Forall_app in HB as [H2 H3]. exists B. split; [exact SL|].
  intros i Hi. split; [|split]; [apply (all_cn (fun c => cLow c) kl H1)|apply (all_cn (fun c => cHigh c) kl H2)|apply (all_cn (fun c => cClose c) kl H3)]; exact Hi.
Qed.
Lemma ok100_within (x : @F (num m)) : ok100 m x -> ext m x <> NaN -> within m 0 100 x.
Proof. intros [H1 H2] H3. change 100%R with (IZR 100). apply range_number; auto. lia. Qed.
End KdjFacts.

(** RSV, K and D lie in [0, 100] *)
Theorem C44_bounds (m : Model) (p : Z) (kl : list (Candle (N := num m))) (rows : list (row KdjV)) (i : nat) (r : row KdjV) :
  Forall (sane m) kl -> rows_of I_Kdj p kl = Ok rows -> nth_error rows i = Some r ->
  within m 0 100 (kRSV (rVal r)) /\ within m 0 100 (kK (rVal r)) /\ within m 0 100 (kD (rVal r)).
Proof.
  intros HS E Er.
  destruct (Z_lt_le_dec p 1).
  { rewrite Kdj_none in E by lia. injection E as <-. apply tab_some in Er as [_ ->]. cbn [rVal kRSV kK kD].
    assert (Q : forall z, 0 <= z <= 100 -> within m 0 100 (@ofZ (num m) z)) by (intros z Hz; exists (IZR z); split; [apply number_Z; lia|split; apply IZR_le; lia]).
    repeat split; apply Q; lia. }
  destruct (Z.eq_dec p 1) as [->|Hne].
  { destruct kl as [|c kl]; [injection E as <-; destruct i; discriminate|]. rewrite Kdj_panic in E by discriminate. discriminate. }
  replace p with (Z.of_nat (Z.to_nat p)) in E by lia. rewrite Kdj_T in E by lia. injection E as <-. apply tab_some in Er as [Hi ->]. cbn [rVal]. unfold kdjG.
  destruct (sane_fb HS) as (B & SL & HB).
  assert (G : forall i, (i < length kl)%nat -> goodv m (cLow (cn kl i)) /\ goodv m (cHigh (cn kl i)) /\ goodv m (cClose (cn kl i)) /\
    ngt (ext m) (cLow (cn kl i)) (cClose (cn kl i)) /\ ngt (ext m) (cClose (cn kl i)) (cHigh (cn kl i))) by (intros; now apply sane_good).
  assert (Hp2 : (2 <= Z.to_nat p)%nat) by lia.
  pose proof (@kdjF_bounds m (Z.to_nat p) Hp2 (fun i => cLow (cn kl i)) (fun i => cHigh (cn kl i)) (fun i => cClose (cn kl i)) (length kl) G i Hi) as K1.
  pose proof (@kdjF_num m (Z.to_nat p) Hp2 (fun i => cLow (cn kl i)) (fun i => cHigh (cn kl i)) (fun i => cClose (cn kl i)) (length kl) G B SL HB i Hi) as K2.
  destruct (kdjF _ _ _ _ i) as [[rs k] d]. cbn [kRSV kK kD]. destruct K1 as (A1 & A2 & A3), K2 as (B1 & B2 & B3).
  repeat split; now apply ok100_within.
Qed.
Print Assumptions C44_bounds.

(** the recurrences: bars before the first full window report 0, 50, 50; then RSV is the position of the close within
    the window's lowest low and highest high, K and D are two-thirds/one-third averages, J = 3K - 2D. *)
Theorem C44_formulas (m : Model) (p : Z) (kl : list (Candle (N := num m))) (rows : list (row KdjV)) (i : nat) (r : row KdjV) (c : Candle) :
  2 <= p -> no_nan (map (fun c => cLow c) kl) -> no_nan (map (fun c => cHigh c) kl) ->
  Forall (datum m) (map (fun c => cLow c) kl) -> Forall (datum m) (map (fun c => cHigh c) kl) ->
  rows_of I_Kdj p kl = Ok rows -> nth_error rows i = Some r -> nth_error kl i = Some c ->
  kJ (rVal r) = ofZ 3 *~ kK (rVal r) -~ ofZ 2 *~ kD (rVal r) /\
  (Z.of_nat i < p - 1 -> kRSV (rVal r) = ofZ 0 /\ kK (rVal r) = ofZ 50 /\ kD (rVal r) = ofZ 50) /\
  (p - 1 <= Z.of_nat i -> exists low high r', nth_error rows (i - 1) = Some r' /\
     min_of low (window (map (fun c => cLow c) kl) i (Z.to_nat p)) /\ max_of high (window (map (fun c => cHigh c) kl) i (Z.to_nat p)) /\
     kRSV (rVal r) = (if high -~ low <~ lit 1 1000000 then ofZ 100 else (cClose c -~ low) /~ (high -~ low) *~ ofZ 100) /\
     kK (rVal r) = lit 2 3 *~ kK (rVal r') +~ lit 1 3 *~ kRSV (rVal r) /\
     kD (rVal r) = lit 2 3 *~ kD (rVal r') +~ lit 1 3 *~ kK (rVal r)).
Proof.
  intros Hp N1 N2 D1 D2 E Er Ec. apply cn_some in Ec. set (q := Z.to_nat p).
  replace p with (Z.of_nat q) in E by lia. rewrite Kdj_T in E by lia. injection E as <-. apply tab_some in Er as [Hi ->]. cbn [rVal]. unfold kdjG at 1 2 3 4 5 6 7 8 9 10 11 12.
  set (lo := fun i => cLow (cn kl i)). set (hi := fun i => cHigh (cn kl i)). set (cl := fun i => cClose (cn kl i)).
  assert (Gl : forall j, (j < length kl)%nat -> goodv m (lo j)).
  { intros j Hj. apply goodv_nan; [apply (all_cn (fun c => cLow c) kl D1 Hj)|apply (all_cn (fun c => cLow c) kl N1 Hj)]. }
  assert (Gh : forall j, (j < length kl)%nat -> goodv m (hi j)).
  { intros j Hj. apply goodv_nan; [apply (all_cn (fun c => cHigh c) kl D2 Hj)|apply (all_cn (fun c => cHigh c) kl N2 Hj)]. }
  split; [|split].
  - destruct (kdjF q lo hi cl i) as [[a b] d]. reflexivity.
  - intros Hlt. destruct i as [|j]; cbn [kdjF]; [repeat split|]. destruct (Nat.ltb_spec (S j) (q - 1)); [repeat split|lia].
  - intros Hge. destruct i as [|j]; [lia|].
    exists (lowF lo (S j - (q - 1)) (q - 1)), (highF hi (S j - (q - 1)) (q - 1)), (mkRow (tm kl j) (kdjG q kl j)).
    split; [replace (S j - 1)%nat with j by lia; apply tab_nth_error; lia|].
    assert (W : forall g : Candle -> @F (num m), window (map g kl) (S j) q = tab (S (q - 1)) (fun k => g (cn kl (S j - (q - 1) + k)%nat))).
    { intros g. rewrite (@window_full _ (map g kl) (S j) q (g (blank 0))) by (rewrite ?map_length; lia). replace q with (S (q - 1)) at 1 by lia.
      apply tab_ext. intros k Hk. rewrite map_nth. unfold cn. do 2 f_equal. lia. }
    split; [|split; [|split; [|split]]].
    + rewrite W. apply lowF_min. intros; apply Gl; lia.
    + rewrite W. apply highF_max. intros; apply Gh; lia.
    + cbn [kdjF]. destruct (Nat.ltb_spec (S j) (q - 1)); [lia|]. destruct (kdjF q lo hi cl j) as [[a b] d]. cbn [kRSV]. unfold rsvF. now rewrite <- Ec.
    + unfold kdjG. cbn [kdjF]. destruct (Nat.ltb_spec (S j) (q - 1)); [lia|]. fold lo hi cl. destruct (kdjF q lo hi cl j) as [[a b] d]. reflexivity.
    + unfold kdjG. cbn [kdjF]. destruct (Nat.ltb_spec (S j) (q - 1)); [lia|]. fold lo hi cl. destruct (kdjF q lo hi cl j) as [[a b] d]. reflexivity.
Qed.
Print Assumptions C44_formulas.
Corollary C44_J_exact (p : Z) (kl : list (Candle (N := XR))) (rows : list (row KdjV)) (i : nat) (r : row KdjV) (k d : R) :
  rows_of I_Kdj p kl = Ok rows -> nth_error rows i = Some r -> kK (rVal r) = Fin k -> kD (rVal r) = Fin d -> kJ (rVal r) = Fin (3 * k - 2 * d).
Proof.
  intros E Er Hk Hd. assert (Q : kJ (rVal r) = kdj_j (kK (rVal r)) (kD (rVal r))).
  { destruct (Z_lt_le_dec p 1); [rewrite Kdj_none in E by lia; injection E as <-; apply tab_some in Er as [_ ->]; reflexivity|].
    destruct (Z.eq_dec p 1) as [->|Hne].
    { destruct kl as [|c kl]; [injection E as <-; destruct i; discriminate|]. rewrite Kdj_panic in E by discriminate. discriminate. }
    replace p with (Z.of_nat (Z.to_nat p)) in E by lia. rewrite Kdj_T in E by lia. injection E as <-. apply tab_some in Er as [Hi ->]. cbn [rVal]. unfold kdjG.
    destruct (kdjF _ _ _ _ i) as [[a b] e]. reflexivity. }
  rewrite Q, Hk, Hd. unfold kdj_j. cbn. f_equal.
Qed.
Print Assumptions C44_J_exact.
Example C44_hyp : Forall (sane (Float64 ex_lib)) (flat [10; 12; 11; 15; 14]) /\
  rmap (map (fun r => (fz 58 <~ kK (rVal r)) && (kK (rVal r) <~ fz 59) && (fz 69 <~ kJ (rVal r)))) (rows_of (N := EX) I_Kdj 2 (flat [10; 12; 11; 15; 16])) = Ok [false; true; false; false; false].
Proof.
  split; [|vm_compute; reflexivity]. repeat constructor; try (apply (@price_Z (Float64 ex_lib)); lia);
  (do 3 eexists; split; [apply (@number_Z (Float64 ex_lib)); lia|split; [apply (@number_Z (Float64 ex_lib)); lia|split; [apply (@number_Z (Float64 ex_lib)); lia|]]]; split; apply IZR_le; lia).
Qed.
