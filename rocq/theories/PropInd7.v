(** * PropInd7: properties C54 (ulcer index), C60 (Williams %R, stochastic oscillator) and C62 (Camarilla). *)
From Coq Require Import Reals Lra ZArith Lia Bool List Sorted.
From Verif Require Import Base Num XReal Order OrderMore FloatLaws FloatOrder FloatBounds SpecNum B64 Lits Containers Ta TaTools TaAvg TaRange SpecTa Klines RSum XrMore
  IndBase IndTrend IndChannel IndOsc IndTools IndForms IndForms2 IndForms3 IndForms4 IndFormsSpec IndBounds IndBounds2 IndExact PropInd1 PropInd5 PropInd6.
Import ListNotations.
Set Implicit Arguments.
Open Scope Z_scope.
Local Notation highs := (map (fun c => cHigh c)).
Local Notation lows := (map (fun c => cLow c)).
Local Notation closes := (map (fun c => cClose c)).

Section Facts.
Variable m : Model.
Local Instance NumM : Num := num m.
Let RL := rnd_laws m.
Let A := rl_A RL.
Local Notation okv := (datum m).
Local Notation ex := (ext m).
Local Notation nng := (nng (datum m) (ext m)).
Local Notation ngt := (ngt (ext m)).
Local Notation fb := (fb (datum m) (ext m)).
Local Notation goodv := (goodv m).
Let S1 : ScaleLaw 1 (rd m) := scale_1 RL.

Lemma isInf_fin x r : okv x -> ex x = Fin r -> isNaN x || isInf x = false.
Proof.
  intros Hx E. assert (Hn : number m x r) by (now apply number_ext). unfold isInf. rewrite (rl_nan RL), E. cbn [orb].
  destruct m as [|L]; cbn in *; [subst x; reflexivity|]. destruct Hn as [[_ Hf] _]. destruct x as [[]|[]| |[] ? ?]; cbn in *; try discriminate; reflexivity.
Qed.
Lemma div_clean_fin a b r : okv a -> okv b -> ex (a /~ b) = Fin r -> div_clean a b = a /~ b.
Proof. intros Ha Hb E. unfold div_clean. rewrite (@isInf_fin (a /~ b) r (al_div A _ _ Ha Hb) E). reflexivity. Qed.
Lemma div_clean_nan a b : ex (a /~ b) = NaN -> div_clean a b = fzero.
Proof. intros E. unfold div_clean. rewrite (rl_nan RL), E. reflexivity. Qed.

Lemma nng_val x r : nng x -> ex x = Fin r -> (0 <= r)%R.
Proof. intros [_ H] E. rewrite E in H. cbn in H. now apply Rltb_f in H. Qed.
Lemma lt_val x y r s : okv x -> okv y -> (x <~ y) = false -> ex x = Fin r -> ex y = Fin s -> (s <= r)%R.
Proof. intros Hx Hy H E1 E2. rewrite (rl_lt RL), E1, E2 in H by assumption. cbn in H. now apply Rltb_f in H. Qed.
(** a share: 0 <= x <= d, d not 0 *)
Lemma share_fb B lo hi x d : fb B lo hi x -> fb B lo hi d -> nng x -> (d <~ x) = false -> ex d <> Fin 0 -> fb 1 0 1 (x /~ d).
Proof.
  intros (X1 & r & X2 & X3) (D1 & s & D2 & D3) [_ Hx] H H0. rewrite X2 in Hx. cbn in Hx. apply Rltb_f in Hx.
  rewrite (rl_lt RL), X2, D2 in H by assumption. cbn in H. apply Rltb_f in H. rewrite D2 in H0.
  assert (s <> 0%R) by congruence. split; [now apply (al_div A)|]. rewrite (rl_div RL) by (auto; rewrite D2; congruence). rewrite X2, D2. cbn [xdiv].
  destruct (Reqb_spec s 0); [contradiction|]. cbn [rdx]. apply (rd_between RL S1); try lia. rewrite !Rmult_1_r. split.
  - apply Rmult_le_pos; [lra|left; apply Rinv_0_lt_compat; lra].
  - apply Rmult_le_reg_r with s; [lra|]. unfold Rdiv. rewrite Rmult_assoc, Rinv_l; lra.
Qed.
Lemma fb1_within lo hi x : fb 1 lo hi x -> within m (IZR lo) (IZR hi) x.
Proof. intros (H1 & r & H2 & H3). apply within_iff. split; [exact H1|]. exists r. split; [exact H2|]. lra. Qed.

(** ** stochastic K *)
Lemma stoK_fb B c h l : fb B (-1) 1 c -> fb B (-1) 1 h -> fb B (-1) 1 l -> ScaleLaw B (rd m) -> ngt l c -> ngt c h ->
  fb 1 0 100 (div_clean (c +~ l *~ ofZ (-1)) (h +~ l *~ ofZ (-1)) *~ ofZ 100).
Proof.
  intros Hc Hh Hl SL L1 L2.
  assert (G : forall x, fb B (-1) 1 x -> goodv x) by (intros x (H1 & r & H2 & _); split; [exact H1|rewrite H2; discriminate]).
  assert (E1 : c +~ l *~ ofZ (-1) = c -~ l) by (apply (al_minus A); apply Hl). assert (E2 : h +~ l *~ ofZ (-1) = h -~ l) by (apply (al_minus A); apply Hl). rewrite E1, E2.
  destruct (@position m l h c) as (P1 & P2 & P3 & P4 & P5); auto.
  assert (X : fb B (-2) 2 (c -~ l)) by now apply diff_fb. assert (D : fb B (-2) 2 (h -~ l)) by now apply diff_fb.
  replace 100 with (1 * 100) at 1 by lia. replace 0 with (0 * 100) at 1 by lia. apply (fb_mulZ RL S1); try lia.
  destruct D as (D1 & d & D2 & D3). destruct (Req_dec d 0) as [->|Hd].
  - destruct X as (X1 & x & X2 & X3). assert (x = 0%R) as ->.
    { pose proof (nng_val P1 X2). pose proof (@lt_val _ _ _ _ D1 X1 P4 D2 X2). lra. }
    rewrite div_clean_nan by (apply (rl_div0 RL); assumption). apply (fb_0 RL S1). lia.
  - assert (Q : fb 1 0 1 ((c -~ l) /~ (h -~ l))).
    { apply share_fb with B (-2) 2; auto; [split; eauto|rewrite D2; congruence]. }
    destruct Q as (Q1 & q & Q2 & Q3). rewrite (@div_clean_fin _ _ _ (proj1 X) D1 Q2). split; eauto.
Qed.
(** ** Williams %R *)
Lemma wil_fb B c h l : fb B (-1) 1 c -> fb B (-1) 1 h -> fb B (-1) 1 l -> ScaleLaw B (rd m) -> ngt l c -> ngt c h ->
  (ex (h -~ l) = Fin 0 -> ex ((h -~ c) /~ (h -~ l) *~ ofZ (-100)) = NaN) /\
  (ex (h -~ l) <> Fin 0 -> fb 1 (-100) 0 ((h -~ c) /~ (h -~ l) *~ ofZ (-100))).
Proof.
  intros Hc Hh Hl SL L1 L2.
  assert (G : forall x, fb B (-1) 1 x -> goodv x) by (intros x (H1 & r & H2 & _); split; [exact H1|rewrite H2; discriminate]).
  destruct (@position m l h c) as (P1 & P2 & P3 & P4 & P5); auto.
  assert (X : fb B (-2) 2 (h -~ c)) by now apply diff_fb. assert (D : fb B (-2) 2 (h -~ l)) by now apply diff_fb. split.
  - intros E. destruct X as (X1 & x & X2 & X3). assert (x = 0%R) as ->.
    { pose proof (nng_val P2 X2). pose proof (@lt_val _ _ _ _ (proj1 D) X1 P5 E X2). lra. }
    assert (Q : ex ((h -~ c) /~ (h -~ l)) = NaN) by (apply (rl_div0 RL); [assumption|apply D|assumption..]).
    rewrite (rl_mul RL); [|apply (al_div A); [assumption|apply D]|apply (al_Z A)]. rewrite Q. reflexivity.
  - intros E. assert (Q : fb 1 0 1 ((h -~ c) /~ (h -~ l))) by (apply share_fb with B (-2) 2; auto).
    destruct Q as (Q1 & q & Q2 & Q3). split; [apply (al_mul A); [exact Q1|apply (al_Z A)]|].
    rewrite (rl_mul RL) by (auto; apply (al_Z A)). rewrite Q2, (rl_Z RL) by lia. cbn [xmul rdx]. apply (rd_between RL S1); try lia. lra.
Qed.
(** ** ulcer index *)
Lemma dd_fb B c u rc ru : fb B (-1) 1 c -> fb B (-1) 1 u -> ScaleLaw B (rd m) -> ex c = Fin rc -> ex u = Fin ru -> (0 < rc <= ru)%R ->
  fb 1 (-100) 0 (div_clean (c +~ u *~ ofZ (-1)) u *~ ofZ 100).
Proof.
  intros Hc Hu SL Ec Eu H. assert (E1 : c +~ u *~ ofZ (-1) = c -~ u) by (apply (al_minus A); apply Hu). rewrite E1.
  pose proof (proj1 Hc) as Oc. pose proof (proj1 Hu) as Ou.
  assert (D : exists t, ex (c -~ u) = Fin t /\ (- ru <= t <= 0)%R).
  { rewrite (rl_sub RL) by assumption. rewrite Ec, Eu. change (xsub (Fin rc) (Fin ru)) with (Fin (rc - ru)). cbn [rdx].
    assert (Q1 : xlt (rd m (rc - ru)) (rd m (- ru)) = false) by (apply (rd_le RL); lra).
    assert (Q2 : xlt (rd m 0) (rd m (rc - ru)) = false) by (apply (rd_le RL); lra).
    rewrite rd_neg, (rd_val RL u Ou Eu) in Q1. rewrite (rd_int RL 0) in Q2 by lia. pose proof (rd_nn RL (rc - ru)) as NN.
    destruct (rd m (rc - ru)) as [t| | |]; cbn in Q1, Q2; try discriminate; try contradiction. apply Rltb_f in Q1, Q2. eauto. }
  destruct D as (t & T1 & T2). assert (Od : okv (c -~ u)) by (now apply (al_sub A)).
  assert (Q : fb 1 (-1) 0 ((c -~ u) /~ u)).
  { split; [now apply (al_div A)|]. rewrite (rl_div RL) by (auto; rewrite Eu; intros Q; injection Q; lra). rewrite T1, Eu. cbn [xdiv].
    destruct (Reqb_spec ru 0); [lra|]. cbn [rdx]. apply (rd_between RL S1); try lia. rewrite !Rmult_1_r.
    assert (0 < / ru)%R by (apply Rinv_0_lt_compat; lra). unfold Rdiv. split; [|nra].
    apply Rmult_le_reg_r with ru; [lra|]. rewrite Rmult_assoc, Rinv_l; lra. }
  destruct Q as (Q1 & q & Q2 & Q3). rewrite (@div_clean_fin _ _ _ Od Ou Q2). change (-100) with (-1 * 100). change 0 with (0 * 100). apply (fb_mulZ RL S1); try lia. split; eauto.
Qed.
Lemma dd_zero c u r : okv c -> okv u -> ex c = Fin r -> ex u = Fin r -> fb 1 0 0 (div_clean (c +~ u *~ ofZ (-1)) u *~ ofZ 100).
Proof.
  intros Oc Ou Ec Eu. assert (E1 : c +~ u *~ ofZ (-1) = c -~ u) by (now apply (al_minus A)). rewrite E1.
  assert (D : ex (c -~ u) = Fin 0). { rewrite (rl_sub RL) by assumption. rewrite Ec, Eu. cbn. rewrite Rplus_opp_r. apply (rd_int RL 0). lia. }
  assert (Od : okv (c -~ u)) by (now apply (al_sub A)). change 0 with (0 * 100). apply (fb_mulZ RL S1); try lia.
  destruct (Req_dec r 0) as [->|Hr].
  - rewrite div_clean_nan by (apply (rl_div0 RL); assumption). apply (fb_0 RL S1). lia.
  - assert (Q : ex ((c -~ u) /~ u) = Fin 0).
    { rewrite (rl_div RL) by (auto; rewrite Eu; congruence). rewrite D, Eu. cbn [xdiv]. destruct (Reqb_spec r 0); [contradiction|]. cbn [rdx].
      replace (0 / r)%R with 0%R by (field; assumption). apply (rd_int RL 0). lia. }
    rewrite (@div_clean_fin _ _ _ Od Ou Q). split; [now apply (al_div A)|]. exists 0%R. split; [exact Q|lra].
Qed.
Lemma sq_fb k x : 0 <= k -> k * k <= 2 ^ 53 -> fb 1 (- k) 0 x -> fb 1 0 (k * k) (x *~ x).
Proof.
  intros Hk H2 (X1 & r & X2 & X3). split; [now apply (al_mul A)|]. rewrite (rl_mul RL) by assumption. rewrite X2. cbn [xmul rdx].
  apply (rd_between RL S1); try lia. rewrite mult_IZR. rewrite opp_IZR in X3. assert (0 <= IZR k)%R by (now apply (IZR_le 0)). nra.
Qed.
Lemma sqrt_fb k x : 0 <= k -> k * k <= 2 ^ 53 -> fb 1 0 (k * k) x -> fb 1 0 k (fsqrt x).
Proof.
  intros Hk H2 (X1 & r & X2 & X3). split; [now apply (al_sqrt A)|]. rewrite (rl_sqrt RL) by assumption. rewrite X2. cbn [xsqrt].
  destruct (Rltb r 0) eqn:E; [apply Rltb_t in E; lra|]. cbn [rdx]. apply (rd_between RL S1); try lia. rewrite mult_IZR in X3. assert (0 <= IZR k)%R by (now apply (IZR_le 0)).
  split; [rewrite Rmult_0_l; apply sqrt_pos|]. rewrite Rmult_1_r. rewrite <- (sqrt_square (IZR k)) by assumption. apply sqrt_le_1_alt. lra.
Qed.
End Facts.

(** ** C54 *)
(** the extended value of a window maximum of prices *)
Lemma top_number (m : Model) (p : Z) (kl : list (Candle (N := num m))) g u i : 1 <= p -> Forall (price m) (map g kl) -> tops g p kl u -> (i < length kl)%nat ->
  exists r s, number m (g (cn kl i)) r /\ number m (u i) s /\ (r <= s)%R /\ In s (map (fun x => match ext m x with Fin t => t | _ => 0%R end) (window (map g kl) i (Z.to_nat p))).
Proof.
  intros Hp Hc Hu Hi. assert (W : Forall (goodv m) (window (map g kl) i (Z.to_nat p))) by (apply Forall_window; now apply Forall_good).
  assert (WP : Forall (price m) (window (map g kl) i (Z.to_nat p))) by now apply Forall_window.
  destruct (max_facts W (Hu i Hi)) as (U1 & U2 & ux & U3 & U4).
  assert (IW : In (g (cn kl i)) (window (map g kl) i (Z.to_nat p))) by (apply in_window; [lia|]; rewrite nth_error_map, cn_in by exact Hi; reflexivity).
  rewrite Forall_forall in WP. destruct (WP _ U3) as (ur & Ur & _), (WP _ IW) as (xr & Xr & _).
  assert (NU : number m (u i) ur) by (now apply ext_number with ux). exists xr, ur. repeat split; auto.
  - eapply ngt_number; [exact (U2 _ IW)|exact Xr|exact NU].
  - apply in_map_iff. exists ux. split; [|exact U3]. apply number_ext in Ur as [_ ->]. reflexivity.
Qed.
(** For positive prices every value is a number between 0 and 100. *)
Theorem C54_range (m : Model) (p : Z) (kl : list (Candle (N := num m))) :
  1 <= p <= 2 ^ 39 -> Forall (price m) (closes kl) -> Forall (fun x => exists r, number m x r /\ (0 < r)%R) (closes kl) ->
  exists rows, rows_of I_Ulcer p kl = Ok rows /\ length rows = length kl /\ Forall (fun r => within m 0 100 (rVal r)) rows.
Proof.
  intros Hp Hc H0. destruct (@Ulcer_T _ (ord_laws m) p kl (proj1 Hp) (price_no_nan Hc)) as (u & Hu & E).
  eexists. split; [exact E|]. split; [apply tab_length|]. rewrite Forall_forall. intros r Hr. apply tab_In in Hr as (i & Hi & <-). cbn [rVal].
  apply fb1_within. destruct (scale_of Hc) as (B & SL & HB). pose proof (all_cn (fun c => cClose c) kl HB) as HB'. pose proof (all_cn (fun c => cClose c) kl H0) as H0'.
  apply sqrt_fb; try lia. apply emaF_fb with (B := 1%R); try lia; [apply (scale_1 (rnd_laws m))|]. intros j Hj. apply (@sq_fb m 100); try lia.
  destruct (@top_number m p kl (fun c => cClose c) u j (proj1 Hp) Hc Hu) as (rc & ru & N1 & N2 & Le & _); [lia|].
  destruct (H0' j) as (r0 & N0 & P0); [lia|]. apply number_ext in N0 as [_ N0], N1 as [D1 N1], N2 as [D2 N2]. rewrite N1 in N0. injection N0 as <-.
  unfold ddF. apply dd_fb with B rc ru; auto; [apply HB'; lia|].
  destruct (scale_of (Forall_window j (Z.to_nat p) Hc)) as (B' & _ & _).
  split; [exact D2|]. exists ru. split; [exact N2|].
  destruct (max_facts (Forall_window j (Z.to_nat p) (Forall_good Hc)) (Hu j ltac:(lia))) as (_ & _ & x & X1 & X2).
  pose proof (Forall_window j (Z.to_nat p) HB) as HW. rewrite Forall_forall in HW. destruct (HW x X1) as (_ & rx & Rx & Bx).
  assert (Q : Fin rx = Fin ru) by (rewrite <- Rx, <- N2; symmetry; exact X2). injection Q as ->. exact Bx.
Qed.
Print Assumptions C54_range.
(** Whatever the data, also with infinities among the prices: no value is below 0. *)
Theorem C54_never_negative (m : Model) (p : Z) (kl : list (Candle (N := num m))) :
  1 <= p -> Forall (datum m) (closes kl) -> no_nan (closes kl) ->
  exists rows, rows_of I_Ulcer p kl = Ok rows /\ length rows = length kl /\ Forall (fun r => (rVal r <~ ofZ 0) = false) rows.
Proof.
  intros Hp Hd Hn. destruct (@Ulcer_T _ (ord_laws m) p kl Hp Hn) as (u & Hu & E).
  eexists. split; [exact E|]. split; [apply tab_length|]. rewrite Forall_forall. intros r Hr. apply tab_In in Hr as (i & Hi & <-). cbn [rVal].
  pose proof (rl_A (rnd_laws m)) as A.
  assert (G : Forall (goodv m) (closes kl)).
  { unfold no_nan in Hn. rewrite Forall_forall in *. intros x Hx. split; [now apply Hd|]. intros Q. specialize (Hn x Hx). rewrite (rl_nan (rnd_laws m)), Q in Hn. discriminate. }
  assert (DD : forall j, (j < length kl)%nat -> datum m (ddF (fun j => cClose (cn kl j)) u j)).
  { intros j Hj. destruct (max_facts (Forall_window j (Z.to_nat p) G) (Hu j Hj)) as ([U _] & _). unfold ddF. apply (al_mul A); [|apply (al_Z A)].
    unfold div_clean. destruct (_ || _); [apply (al_Z A)|]. apply (al_div A); [|exact U]. apply (al_add A); [apply (all_cn (fun c => cClose c) kl Hd); exact Hj|].
    apply (al_mul A); [exact U|apply (al_Z A)]. }
  assert (OE : datum m (emaF p (fun j => ddF (fun j => cClose (cn kl j)) u j *~ ddF (fun j => cClose (cn kl j)) u j) i)).
  { clear E. induction i as [|i IH]; cbn [emaF]; [apply (al_mul A); apply DD; lia|].
    apply (al_div A); [|apply (al_Z A)]. apply (al_add A); apply (al_mul A); try apply (al_Z A); [apply (al_mul A); apply DD; lia|apply IH; lia]. }
  pose proof (nng_sqrt (rnd_laws m) _ OE) as [Q1 Q2]. apply (ngt_lt (rnd_laws m)); [apply (al_Z A)|exact Q1|]. unfold ngt. rewrite (rl_Z (rnd_laws m)) by lia. exact Q2.
Qed.
Print Assumptions C54_never_negative.
(** As long as every close is the largest of its window, the value is 0. *)
Theorem C54_zero_at_top (m : Model) (p : Z) (kl : list (Candle (N := num m))) :
  1 <= p <= 2 ^ 39 -> Forall (price m) (closes kl) ->
  exists rows, rows_of I_Ulcer p kl = Ok rows /\ length rows = length kl /\
  forall i r, nth_error rows i = Some r ->
    (forall j x, (j <= i)%nat -> nth_error (closes kl) j = Some x -> max_of x (window (closes kl) j (Z.to_nat p))) ->
    number m (rVal r) 0.
Proof.
  intros Hp Hc. destruct (@Ulcer_T _ (ord_laws m) p kl (proj1 Hp) (price_no_nan Hc)) as (u & Hu & E).
  eexists. split; [exact E|]. split; [apply tab_length|]. intros i r Hr HM. apply tab_some in Hr as [Hi ->]. cbn [rVal].
  assert (Q : within m 0 0 (fsqrt (emaF p (fun j => ddF (fun j => cClose (cn kl j)) u j *~ ddF (fun j => cClose (cn kl j)) u j) i))).
  { apply (@fb1_within m 0 0). apply (@sqrt_fb m 0); try lia. apply emaF_fb with (B := 1%R); try lia; [apply (scale_1 (rnd_laws m))|]. intros j Hj. apply (@sq_fb m 0); try lia.
    destruct (@top_number m p kl (fun c => cClose c) u j (proj1 Hp) Hc Hu) as (rc & ru & N1 & N2 & Le & _); [lia|].
    assert (Ej : nth_error (closes kl) j = Some (cClose (cn kl j))) by (rewrite nth_error_map, cn_in by lia; reflexivity).
    specialize (HM j _ Hj Ej). pose proof (Forall_window j (Z.to_nat p) (Forall_good Hc)) as GW.
    destruct (max_facts GW HM) as (_ & HM2 & _), (max_facts GW (Hu j ltac:(lia))) as (_ & _ & x & X1 & X2). specialize (HM2 x X1).
    apply number_ext in N1 as [D1 N1], N2 as [D2 N2]. rewrite Forall_forall in GW. 
    assert (ru <= rc)%R. { unfold ngt in HM2. rewrite <- X2 in HM2. assert (HM3 : xlt (Fin rc) (Fin ru) = false) by (rewrite <- N1, <- N2; exact HM2). cbn in HM3. now apply Rltb_f in HM3. }
    assert (rc = ru) by lra. subst ru. unfold ddF. change (- 0) with 0. apply dd_zero with rc; auto. }
  destruct Q as (q & Q1 & Q2). replace 0%R with q by lra. exact Q1.
Qed.
Print Assumptions C54_zero_at_top.
Example C54_hyp : rmap (map (fun r => rVal r ==~ ofZ 0)) (rows_of (N := EX) I_Ulcer 3 (flat [6; 8; 8; 10; 9; 12])) = Ok [true; true; true; true; false; false] /\
  rmap (map (fun r => (ofZ 4 <~ rVal r) && (rVal r <~ ofZ 8))) (rows_of (N := EX) I_Ulcer 3 (flat [6; 8; 8; 10; 9; 12])) = Ok [false; false; false; false; true; true].
Proof. split; vm_compute; reflexivity. Qed.

(** ** C60 *)
(** The highest high and the lowest low of the window, and the close between them. *)
Lemma band_facts (m : Model) (p : Z) (kl : list (Candle (N := num m))) h l : 1 <= p -> Forall (sane m) kl ->
  tops (fun c => cHigh c) p kl h -> bottoms (fun c => cLow c) p kl l ->
  exists B, ScaleLaw B (rd m) /\ forall i, (i < length kl)%nat ->
    fb (datum m) (ext m) B (-1) 1 (cClose (cn kl i)) /\ fb (datum m) (ext m) B (-1) 1 (h i) /\ fb (datum m) (ext m) B (-1) 1 (l i) /\
    ngt (ext m) (l i) (cClose (cn kl i)) /\ ngt (ext m) (cClose (cn kl i)) (h i).
Proof.
  intros Hp HS Hh Hl. destruct (sane_fb HS) as (B & SL & HB). exists B. split; [exact SL|]. intros i Hi.
  destruct (HB i Hi) as (B1 & B2 & B3). destruct (sane_good HS Hi) as (G1 & G2 & G3 & G4 & G5).
  assert (FH : Forall (fb (datum m) (ext m) B (-1) 1) (highs kl)).
  { rewrite Forall_forall. intros x Hx. apply in_map_iff in Hx as (c & <- & Hc). apply In_nth_error in Hc as (j & Hj). pose proof (cn_some _ _ Hj) as <-. apply HB. now apply nth_error_Some; rewrite Hj. }
  assert (FL : Forall (fb (datum m) (ext m) B (-1) 1) (lows kl)).
  { rewrite Forall_forall. intros x Hx. apply in_map_iff in Hx as (c & <- & Hc). apply In_nth_error in Hc as (j & Hj). pose proof (cn_some _ _ Hj) as <-. apply HB. now apply nth_error_Some; rewrite Hj. }
  assert (G : forall x, fb (datum m) (ext m) B (-1) 1 x -> goodv m x) by (intros x (H1 & r & H2 & _); split; [exact H1|rewrite H2; discriminate]).
  assert (GH : Forall (goodv m) (highs kl)) by (eapply Forall_impl; [|exact FH]; auto). assert (GL : Forall (goodv m) (lows kl)) by (eapply Forall_impl; [|exact FL]; auto).
  destruct (max_facts (Forall_window i (Z.to_nat p) GH) (Hh i Hi)) as (U1 & U2 & ux & U3 & U4).
  destruct (min_facts (Forall_window i (Z.to_nat p) GL) (Hl i Hi)) as (L1 & L2 & lx & L3 & L4).
  assert (IH : In (cHigh (cn kl i)) (window (highs kl) i (Z.to_nat p))) by (apply in_window; [lia|]; rewrite nth_error_map, cn_in by exact Hi; reflexivity).
  assert (IL : In (cLow (cn kl i)) (window (lows kl) i (Z.to_nat p))) by (apply in_window; [lia|]; rewrite nth_error_map, cn_in by exact Hi; reflexivity).
  split; [exact B3|]. split; [|split; [|split]].
  - rewrite Forall_forall in FH. destruct (FH ux (window_In _ _ _ _ U3)) as (_ & r & R1 & R2). split; [apply U1|]. exists r. split; [|exact R2]. transitivity (ext m ux); [exact U4|exact R1].
  - rewrite Forall_forall in FL. destruct (FL lx (window_In _ _ _ _ L3)) as (_ & r & R1 & R2). split; [apply L1|]. exists r. split; [|exact R2]. transitivity (ext m lx); [exact L4|exact R1].
  - apply ngt_trans with (cLow (cn kl i)); [apply G1|exact (L2 _ IL)|exact G4].
  - apply ngt_trans with (cHigh (cn kl i)); [apply G2|exact G5|exact (U2 _ IH)].
Qed.
(** a window in which every high and every low are the same number *)
Definition flat_window (m : Model) (p : Z) (kl : list (Candle (N := num m))) (i : nat) : Prop :=
  exists q, Forall (fun c => number m (cHigh c) q /\ number m (cLow c) q) (window kl i (Z.to_nat p)).
Lemma window_map A B (f : A -> B) l i p : window (map f l) i p = map f (window l i p).
Proof. unfold window. now rewrite firstn_map, skipn_map. Qed.
Lemma number_unique (m : Model) (x : @F (num m)) a b : number m x a -> number m x b -> a = b.
Proof. intros H1 H2. apply number_ext in H1 as [_ H1], H2 as [_ H2]. rewrite H1 in H2. now injection H2. Qed.
Lemma flat_iff (m : Model) (p : Z) (kl : list (Candle (N := num m))) h l i : 1 <= p -> Forall (sane m) kl ->
  tops (fun c => cHigh c) p kl h -> bottoms (fun c => cLow c) p kl l -> (i < length kl)%nat ->
  (flat_window m p kl i <-> ext m (h i -~ l i) = Fin 0).
Proof.
  intros Hp HS Hh Hl Hi.
  assert (PH : Forall (price m) (highs kl)) by (rewrite Forall_map; eapply Forall_impl; [|exact HS]; intros c (_ & P & _); exact P).
  assert (PL : Forall (price m) (lows kl)) by (rewrite Forall_map; eapply Forall_impl; [|exact HS]; intros c (P & _); exact P).
  destruct (max_facts (Forall_window i (Z.to_nat p) (Forall_good PH)) (Hh i Hi)) as (U1 & U2 & ux & U3 & U4).
  destruct (min_facts (Forall_window i (Z.to_nat p) (Forall_good PL)) (Hl i Hi)) as (L1 & L2 & lx & L3 & L4).
  rewrite window_map in U3, L3. apply in_map_iff in U3 as (cu & <- & U3), L3 as (cl & <- & L3).
  rewrite Forall_forall in HS. pose proof (HS cu (window_In _ _ _ _ U3)) as (_ & _ & _ & ul & uh & ux & Ul & Uh & Ux & Uo). pose proof (HS cl (window_In _ _ _ _ L3)) as (_ & _ & _ & ll & lh & lx & Ll & Lh & Lx & Lo).
  assert (NU : number m (h i) uh) by (now apply ext_number with (cHigh cu)). assert (NL : number m (l i) ll) by (now apply ext_number with (cLow cl)).
  split.
  - intros (q & F). rewrite Forall_forall in F. destruct (F cu U3) as [Q1 _], (F cl L3) as [_ Q2].
    assert (uh = q) by (now apply (number_unique m (cHigh cu))). assert (ll = q) by (now apply (number_unique m (cLow cl))). subst.
    apply number_ext in NU as [D1 NU], NL as [D2 NL]. rewrite (rl_sub (rnd_laws m)) by assumption. rewrite NU, NL. cbn. rewrite Rplus_opp_r. apply (rd_int (rnd_laws m) 0). lia.
  - intros Z0. assert (uh = ll) by (now apply (@sub_zero m (h i) (l i))). subst ll. exists uh. rewrite Forall_forall. intros c Hc.
    destruct (HS c (window_In _ _ _ _ Hc)) as (_ & _ & _ & cl' & ch' & cx' & Cl & Ch & Cx & Co).
    assert (ch' <= uh)%R by (apply (@ngt_number m (cHigh c) (h i)); auto; apply U2; rewrite window_map; apply in_map_iff; eauto).
    assert (uh <= cl')%R by (apply (@ngt_number m (l i) (cLow c)); auto; apply L2; rewrite window_map; apply in_map_iff; eauto).
    replace uh with ch' at 1 by lra. replace uh with cl' by lra. now split.
Qed.
(** Williams %R is a number between -100 and 0 unless the window is flat, and NaN if it is. *)
Theorem C60_Williams (m : Model) (p : Z) (kl : list (Candle (N := num m))) :
  1 <= p -> Forall (sane m) kl ->
  exists rows, rows_of I_Williams p kl = Ok rows /\ length rows = length kl /\
  forall i r, nth_error rows i = Some r ->
    (~ flat_window m p kl i -> within m (-100) 0 (rVal r)) /\ (flat_window m p kl i -> isNaN (rVal r) = true).
Proof.
  intros Hp HS.
  assert (PH : Forall (price m) (highs kl)) by (rewrite Forall_map; eapply Forall_impl; [|exact HS]; intros c (_ & P & _); exact P).
  assert (PL : Forall (price m) (lows kl)) by (rewrite Forall_map; eapply Forall_impl; [|exact HS]; intros c (P & _); exact P).
  destruct (@Williams_T _ (ord_laws m) p kl Hp (price_no_nan PH) (price_no_nan PL)) as (h & l & Hh & Hl & E).
  eexists. split; [exact E|]. split; [apply tab_length|]. intros i r Hr. apply tab_some in Hr as [Hi ->]. cbn [rVal].
  destruct (band_facts Hp HS Hh Hl) as (B & SL & HB). destruct (HB i Hi) as (B1 & B2 & B3 & B4 & B5).
  destruct (@wil_fb m B _ _ _ B1 B2 B3 SL B4 B5) as [W1 W2]. rewrite (flat_iff Hp HS Hh Hl Hi).
  split; intros Q.
  - apply (@fb1_within m (-100) 0). exact (W2 Q).
  - transitivity (isNaN ((h i -~ cClose (cn kl i)) /~ (h i -~ l i) *~ ofZ (-100))); [reflexivity|]. rewrite (rl_nan (rnd_laws m)). rewrite W1 by exact Q. reflexivity.
Qed.
Print Assumptions C60_Williams.
(** %R is the defining ratio of the highest high, the lowest low and the close *)
Theorem C60_Williams_formula (m : Model) (p : Z) (kl : list (Candle (N := num m))) :
  1 <= p -> no_nan (highs kl) -> no_nan (lows kl) ->
  exists rows, rows_of I_Williams p kl = Ok rows /\ length rows = length kl /\
  forall i r c, nth_error rows i = Some r -> nth_error kl i = Some c ->
    exists h l, max_of h (window (highs kl) i (Z.to_nat p)) /\ min_of l (window (lows kl) i (Z.to_nat p)) /\
      rVal r = (h -~ cClose c) /~ (h -~ l) *~ ofZ (-100).
Proof.
  intros Hp PH PL. destruct (@Williams_T _ (ord_laws m) p kl Hp PH PL) as (h & l & Hh & Hl & E).
  eexists. split; [exact E|]. split; [apply tab_length|]. intros i r c Hr Hc. apply tab_some in Hr as [Hi ->]. cbn [rVal]. apply cn_some in Hc as <-.
  exists (h i), (l i). split; [now apply Hh|]. split; [now apply Hl|reflexivity].
Qed.
Print Assumptions C60_Williams_formula.
(** The flat window refutes the range for %R: three candles at price 8. *)
Theorem C60_Williams_flat_refuted :
  rmap (map (fun r => isNaN (rVal r))) (rows_of (N := EX) I_Williams 14 [kd 8 8 8 8 1 60; kd 8 8 8 8 1 120; kd 8 8 8 8 1 180]) = Ok [true; true; true].
Proof. vm_compute. reflexivity. Qed.
Print Assumptions C60_Williams_flat_refuted.

(** Stochastic K is a number between 0 and 100 in both models, flat windows included (it is 0 there). *)
Theorem C60_Stochastic_K (m : Model) (p : Z) (kl : list (Candle (N := num m))) :
  1 <= p -> Forall (sane m) kl ->
  exists rows, rows_of I_Stoch p kl = Ok rows /\ length rows = length kl /\ Forall (fun r => within m 0 100 (kdK (rVal r))) rows.
Proof.
  intros Hp HS.
  assert (PH : Forall (price m) (highs kl)) by (rewrite Forall_map; eapply Forall_impl; [|exact HS]; intros c (_ & P & _); exact P).
  assert (PL : Forall (price m) (lows kl)) by (rewrite Forall_map; eapply Forall_impl; [|exact HS]; intros c (P & _); exact P).
  destruct (@Stoch_T _ (ord_laws m) p kl Hp (price_no_nan PH) (price_no_nan PL)) as (h & l & Hh & Hl & E).
  eexists. split; [exact E|]. split; [apply tab_length|]. rewrite Forall_forall. intros r Hr. apply tab_In in Hr as (i & Hi & <-). cbn [rVal kdK].
  destruct (band_facts Hp HS Hh Hl) as (B & SL & HB). destruct (HB i Hi) as (B1 & B2 & B3 & B4 & B5).
  apply (@fb1_within m 0 100). exact (@stoK_fb m B _ _ _ B1 B2 B3 SL B4 B5).
Qed.
Print Assumptions C60_Stochastic_K.
(** D is the mean of the last three K's and stays between 0 and 100 in exact arithmetic. *)
Theorem C60_Stochastic_D_exact (p : Z) (kl : list (Candle (N := num Exact))) :
  1 <= p -> Forall (sane Exact) kl ->
  exists (rows : list (row (@KD (num Exact)))) (ks : list R), rows_of I_Stoch p kl = Ok rows /\ length rows = length kl /\ map (fun r => kdK (rVal r)) rows = map Fin ks /\
    forall i r, nth_error rows i = Some r -> kdD (rVal r) = Fin (mean (window ks i 3)) /\ within Exact 0 100 (kdD (rVal r)).
Proof.
  intros Hp HS.
  assert (PH : Forall (price Exact) (highs kl)) by (rewrite Forall_map; eapply Forall_impl; [|exact HS]; intros c (_ & P & _); exact P).
  assert (PL : Forall (price Exact) (lows kl)) by (rewrite Forall_map; eapply Forall_impl; [|exact HS]; intros c (P & _); exact P).
  destruct (@Stoch_T _ (ord_laws Exact) p kl Hp (price_no_nan PH) (price_no_nan PL)) as (h & l & Hh & Hl & E).
  destruct (band_facts Hp HS Hh Hl) as (B & SL & HB).
  set (K := stoK (N := num Exact) (fun i => cClose (cn kl i)) h l) in *.
  assert (HK : forall j, (j < length kl)%nat -> within Exact 0 100 (K j)).
  { intros j Hj. destruct (HB j Hj) as (B1 & B2 & B3 & B4 & B5). apply (@fb1_within Exact 0 100). exact (@stoK_fb Exact B _ _ _ B1 B2 B3 SL B4 B5). }
  pose (g := fun j => match K j with Fin t => t | _ => 0%R end).
  assert (EK : forall j, (j < length kl)%nat -> K j = Fin (g j)) by (intros j Hj; destruct (HK j Hj) as (t & Ht & _); assert (Ht2 : K j = Fin t) by exact Ht; unfold g; rewrite Ht2; reflexivity).
  exists (tab (length kl) (fun i => mkRow (tm kl i) (mkKD (K i) (smaF (N := num Exact) 3 K i)))), (tab (length kl) g).
  split; [exact E|]. split; [apply tab_length|]. split.
  { unfold tab. rewrite !map_map. apply map_ext_in. intros j Hj. apply in_seq in Hj. cbn [rVal kdK]. apply EK. lia. }
  intros i r Hr. apply tab_some in Hr as [Hi ->]. cbn [rVal kdD].
  pose proof (@smaF_exact 3 K g (length kl) i ltac:(lia) Hi EK) as ED. split; [exact ED|]. eexists. split; [exact ED|].
  apply mean_bounds; [apply window_not_nil; [now rewrite tab_length|lia]|]. intros x Hx. apply In_window_tab in Hx as (j & Hj & ->).
  destruct (HK j Hj) as (t & Ht & Bt). assert (Ht2 : K j = Fin t) by exact Ht. unfold g. rewrite Ht2. exact Bt.
Qed.
Print Assumptions C60_Stochastic_D_exact.
(** In float64 the running sum behind D leaves a residue: D can be below 0. *)
Definition kc (h l c t : Z) := kd c h l c 1 t.
Theorem C60_Stochastic_D_refuted :
  rmap (map (fun r => kdD (rVal r) <~ ofZ 0)) (rows_of (N := EX) I_Stoch 2 [kc 24 20 24 60; kc 49 36 36 120; kc 35 32 32 180; kc 35 20 20 240; kc 35 17 17 300]) = Ok [false; false; false; false; true].
Proof. vm_compute. reflexivity. Qed.
Print Assumptions C60_Stochastic_D_refuted.
Example C60_hyp : rmap (map (fun r => rVal r ==~ ofZ (-25))) (rows_of (N := EX) I_Williams 2 [kc 12 8 11 60; kc 10 6 9 120]) = Ok [true; false] /\
  rmap (map (fun r => kdK (rVal r) ==~ ofZ 75)) (rows_of (N := EX) I_Stoch 2 [kc 12 8 11 60; kc 10 6 9 120]) = Ok [true; false].
Proof. split; vm_compute; reflexivity. Qed.

(** ** C62 *)
(** all numbers, in rising order *)
Definition rising (m : Model) (xs : list (@F (num m))) : Prop := exists rs, Forall2 (number m) xs rs /\ Sorted Rle rs.
Lemma rising_of (m : Model) (xs : list (@F (num m))) : Forall (fun x => exists r, number m x r) xs -> Sorted (ngt (ext m)) xs -> rising m xs.
Proof.
  induction xs as [|x xs IH]; intros H S; [exists []; split; constructor|]. inversion H as [|? ? (r & Hr) H']; subst. inversion S as [|? ? S' Hd]; subst.
  destruct (IH H' S') as (rs & F & SR). exists (r :: rs). split; [now constructor|]. constructor; [exact SR|].
  destruct F as [|y s ys ss Hy F]; constructor. inversion Hd; subst. eapply ngt_number; eauto.
Qed.
Lemma fb_lit (m : Model) B hi a b (x : @F (num m)) : ScaleLaw B (rd m) -> 0 <= a <= 2 * Zpos b -> Zpos b <= 2 ^ 50 -> 0 <= hi -> 2 * hi <= 2 ^ 53 ->
  fb (datum m) (ext m) B 0 hi x -> fb (datum m) (ext m) B 0 (2 * hi) (x *~ lit a b).
Proof.
  intros SL Ha Hb H0 Hh (X1 & r & X2 & X3). pose proof (rnd_laws m) as RL. pose proof (rl_A RL) as A.
  assert (L : exists u, ext m (lit a b) = Fin u /\ (0 <= u <= 2)%R).
  { rewrite (rl_lit RL) by lia. destruct (@rd_between _ _ _ _ RL 1 (scale_1 RL) (IZR a / IZR (Zpos b)) 0 2) as (s & S1 & S2); try lia.
    - assert (0 < IZR (Zpos b))%R by (now apply (IZR_lt 0)). rewrite !Rmult_1_r. destruct Ha as [A1 A2]. apply IZR_le in A1, A2. rewrite mult_IZR in A2. split.
      + apply Rmult_le_pos; [lra|]. left. now apply Rinv_0_lt_compat.
      + apply Rmult_le_reg_r with (IZR (Zpos b)); [assumption|]. unfold Rdiv. rewrite Rmult_assoc, Rinv_l; lra.
    - exists s. split; [exact S1|]. rewrite !Rmult_1_r in S2. exact S2. }
  destruct L as (u & U1 & U2). split; [apply (al_mul A); [exact X1|apply (al_lit A)]|]. rewrite (rl_mul RL) by (try apply (al_lit A); assumption). rewrite X2, U1. cbn [xmul rdx].
  apply (rd_between RL SL); try lia. rewrite mult_IZR. apply (IZR_le 0) in H0. pose proof (proj1 SL). assert (0 <= r)%R by lra. split; [rewrite Rmult_0_l; nra|]. nra.
Qed.
Lemma fb_divk (m : Model) B hi k (x : @F (num m)) : ScaleLaw B (rd m) -> 1 <= k <= 2 ^ 53 -> 0 <= hi <= 2 ^ 53 ->
  fb (datum m) (ext m) B 0 hi x -> fb (datum m) (ext m) B 0 hi (x /~ ofZ k).
Proof.
  intros SL Hk Hh (X1 & r & X2 & X3). pose proof (rnd_laws m) as RL. pose proof (rl_A RL) as A. destruct Hk as [K1 K2]. pose proof (IZR_le _ _ K1) as K1'.
  split; [apply (al_div A); [exact X1|apply (al_Z A)]|]. rewrite (rl_div RL); [|exact X1|apply (al_Z A)|rewrite (rl_Z RL) by lia; intros Q; injection Q; lra].
  rewrite X2, (rl_Z RL) by lia. cbn [xdiv]. destruct (Reqb_spec (IZR k) 0); [lra|]. cbn [rdx]. apply (rd_between RL SL); try lia.
  assert (0 < / IZR k <= 1)%R by (split; [apply Rinv_0_lt_compat; lra|rewrite <- Rinv_1; apply Rinv_le_contravar; lra]). unfold Rdiv. split; nra.
Qed.
(** The levels are the defining multiples of the range about the close. *)
Theorem C62_formula (N : Num) (p : CamP) (kl : list Candle) (rows : list (row CamV)) (i : nat) (r : row CamV) (c : Candle) :
  rows_of I_Camarilla p kl = Ok rows -> nth_error rows i = Some r -> nth_error kl i = Some c ->
  let level k := (cHigh c -~ cLow c) *~ lit 11 10 /~ ofZ k in let x := cClose c in let v := rVal r in
  (caH1 v = x +~ level 12 /\ caH2 v = x +~ level 6 /\ caH3 v = x +~ level 4 /\ caH4 v = x +~ level 2 /\ caH5 v = cHigh c /~ cLow c *~ x /\ caH6 v = caH5 v +~ lit 1168 1000 *~ (caH5 v -~ caH4 v)) /\
  (caL1 v = x -~ level 12 /\ caL2 v = x -~ level 6 /\ caL3 v = x -~ level 4 /\ caL4 v = x -~ level 2 /\ caL5 v = x -~ (caH5 v -~ x) /\ caL6 v = x -~ (caH6 v -~ x)).
Proof. intros E Er Ec. rewrite Camarilla_T in E. injection E as <-. apply tab_some in Er as [Hi ->]. apply cn_some in Ec as <-. cbn. repeat split. Qed.
Print Assumptions C62_formula.
(** L4 <= L3 <= L2 <= L1 <= close <= H1 <= H2 <= H3 <= H4, all of them numbers, in both models. *)
Theorem C62_ordered (m : Model) (p : CamP (N := num m)) (kl : list (Candle (N := num m))) : Forall (sane m) kl ->
  exists rows, rows_of I_Camarilla p kl = Ok rows /\ length rows = length kl /\
  forall i r c, nth_error rows i = Some r -> nth_error kl i = Some c -> let v := rVal r in
    rising m [caL4 v; caL3 v; caL2 v; caL1 v; cClose c; caH1 v; caH2 v; caH3 v; caH4 v].
Proof.
  intros HS. rewrite Camarilla_T. eexists. split; [reflexivity|]. split; [apply tab_length|]. intros i r c Er Ec. apply tab_some in Er as [Hi ->]. apply cn_some in Ec as <-. cbn zeta. unfold camF.
  cbn [rVal getCamarilla caL4 caL3 caL2 caL1 caH1 caH2 caH3 caH4].
  destruct (sane_fb HS) as (B & SL & HB). destruct (HB i Hi) as (B1 & B2 & B3). destruct (sane_good HS Hi) as (G1 & G2 & G3 & G4 & G5).
  pose proof (rnd_laws m) as RL. pose proof (rl_A RL) as A. set (x := cClose (cn kl i)) in *. set (h := cHigh (cn kl i)) in *. set (l := cLow (cn kl i)) in *.
  assert (LH : ngt (ext m) l h) by (apply ngt_trans with x; [apply G3|exact G4|exact G5]).
  assert (Nd : nng (datum m) (ext m) (h -~ l)). { apply (nng_sub RL); [apply G2|apply G1|]. apply (ngt_lt RL) in LH; [exact LH|apply G1|apply G2]. }
  assert (Fd : fb (datum m) (ext m) B 0 2 (h -~ l)).
  { destruct (@diff_fb m B SL h l B2 B1) as (D1 & d & D2 & D3). split; [exact D1|]. exists d. split; [exact D2|]. pose proof (nng_val m Nd D2). lra. }
  set (y := (h -~ l) *~ lit 11 10). assert (Fy : fb (datum m) (ext m) B 0 4 y) by (apply (@fb_lit m B 2 11 10); try lia; assumption).
  assert (Ny : nng (datum m) (ext m) y) by (apply (nng_mul RL); [exact Nd|apply (nng_lit RL); lia]).
  assert (T : forall k, 1 <= k <= 2 ^ 53 -> fb (datum m) (ext m) B 0 4 (y /~ ofZ k) /\ nng (datum m) (ext m) (y /~ ofZ k)).
  { intros k Hk. split; [apply fb_divk; try lia; assumption|]. apply (nng_div RL); [exact Ny|apply (nng_Z RL); lia|]. rewrite (rl_Z RL) by lia. intros Q. injection Q as Q. apply (eq_IZR k 0) in Q. lia. }
  assert (TO : forall k k', 1 <= k <= k' -> k' <= 2 ^ 53 -> ngt (ext m) (y /~ ofZ k') (y /~ ofZ k)).
  { intros k k' Hk Hk'. apply (@ngt_div_r _ _ _ _ RL y (ofZ k) (ofZ k') (IZR k) (IZR k')); try apply (al_Z A); auto; try (apply (rl_Z RL); lia).
    split; [apply (IZR_lt 0); lia|apply IZR_le; lia]. }
  destruct (T 2) as [T2 N2], (T 4) as [T4 N4], (T 6) as [T6 N6], (T 12) as [T12 N12]; try lia.
  assert (UP : forall t, fb (datum m) (ext m) B 0 4 t -> fb (datum m) (ext m) B (-1) 5 (x +~ t)) by (intros t Ht; apply (@fb_add _ _ _ _ RL B SL (-1) 1 0 4); try lia; assumption).
  assert (DN : forall t, fb (datum m) (ext m) B 0 4 t -> fb (datum m) (ext m) B (-5) 1 (x -~ t)) by (intros t Ht; apply (@fb_sub _ _ _ _ RL B SL (-1) 1 0 4); try lia; assumption).
  assert (NUM : forall a b t, fb (datum m) (ext m) B a b t -> exists r, number m t r) by (intros a b t Ht; destruct (fb_num m Ht) as (r & Hr & _); eauto).
  assert (MU : forall s t, fb (datum m) (ext m) B 0 4 s -> fb (datum m) (ext m) B 0 4 t -> ngt (ext m) s t -> ngt (ext m) (x +~ s) (x +~ t)).
  { intros s t Hs Ht O. apply (ngt_add RL); [apply G3|apply G3|apply Hs|apply Ht|apply ngt_refl|exact O]. }
  assert (MD : forall s t, fb (datum m) (ext m) B 0 4 s -> fb (datum m) (ext m) B 0 4 t -> ngt (ext m) s t -> ngt (ext m) (x -~ t) (x -~ s)).
  { intros s t Hs Ht O. apply (ngt_sub RL); [apply G3|apply G3|apply Ht|apply Hs|apply ngt_refl|exact O]. }
  apply rising_of.
  - repeat constructor; try (eapply NUM; first [apply UP; eassumption|apply DN; eassumption|exact B3]).
  - repeat constructor; try (apply MD; [assumption..|apply TO; lia]); try (apply MU; [assumption..|apply TO; lia]).
    + apply (ngt_lt RL); [apply G3|apply (UP _ T12)|]. apply (add_ge RL); [apply G3|exact N12].
    + apply (ngt_lt RL); [apply (DN _ T12)|apply G3|]. apply (sub_le RL); [apply G3|exact N12].
Qed.
Print Assumptions C62_ordered.
(** In exact arithmetic the levels mirror each other about the close, and for positive prices the fifth and sixth lie outside the fourth. *)
Theorem C62_mirror (p : CamP (N := XR)) (kl : list (Candle (N := XR))) (rows : list (row CamV)) (i : nat) (r : row CamV) (c : Candle) (h l x : R) :
  rows_of I_Camarilla p kl = Ok rows -> nth_error rows i = Some r -> nth_error kl i = Some c ->
  cHigh c = Fin h -> cLow c = Fin l -> cClose c = Fin x -> (0 < l <= x)%R -> (x <= h)%R -> let v := rVal r in
  exists d1 d2 d3 d4 d5 d6, (0 <= d1 <= d2)%R /\ (d2 <= d3 <= d4)%R /\ (d4 <= d5 <= d6)%R /\
    caH1 v = Fin (x + d1) /\ caL1 v = Fin (x - d1) /\ caH2 v = Fin (x + d2) /\ caL2 v = Fin (x - d2) /\ caH3 v = Fin (x + d3) /\ caL3 v = Fin (x - d3) /\
    caH4 v = Fin (x + d4) /\ caL4 v = Fin (x - d4) /\ caH5 v = Fin (x + d5) /\ caL5 v = Fin (x - d5) /\ caH6 v = Fin (x + d6) /\ caL6 v = Fin (x - d6).
Proof.
  intros E Er Ec Hh Hl Hx H1 H2. destruct (@C62_formula XR p kl rows i r c E Er Ec) as ((A1 & A2 & A3 & A4 & A5 & A6) & (L1 & L2 & L3 & L4 & L5 & L6)).
  rewrite Hh, Hl, Hx in *. cbn zeta.
  assert (lv : forall k, IZR k <> 0%R -> @fdiv XR (fmul (@fsub XR (Fin h) (Fin l)) (lit 11 10)) (ofZ k) = Fin ((h - l) * (11 / 10) / IZR k)).
  { intros k Hk. cbn. destruct (Reqb_spec (IZR k) 0); [contradiction|]. reflexivity. }
  rewrite !lv in * by lra. rewrite A5 in A6, L5. rewrite xr_div in A5, A6, L5 by lra. rewrite A4, xr_mul in A6. rewrite xr_mul in A5, L5.
  change (@lit XR 1168 1000) with (Fin (1168 / 1000)) in A6. rewrite !xr_add, ?xr_sub, ?xr_mul, ?xr_add in *. rewrite A6 in L6. rewrite !xr_sub in L6.
  assert (K : (11 / 20 * (h - l) <= h / l * x - x)%R).
  { assert (h / l * x - x = (h - l) * (x / l))%R as -> by (field; lra). assert (1 <= x / l)%R; [|nra].
    apply Rmult_le_reg_r with l; [lra|]. unfold Rdiv. rewrite Rmult_assoc, Rinv_l; lra. }
  exists ((h - l) * (11 / 10) / 12)%R, ((h - l) * (11 / 10) / 6)%R, ((h - l) * (11 / 10) / 4)%R, ((h - l) * (11 / 10) / 2)%R, (h / l * x - x)%R,
    (h / l * x + 1168 / 1000 * (h / l * x - (x + (h - l) * (11 / 10) / 2)) - x)%R.
  repeat split; try lra; try (etransitivity; [eassumption|]; f_equal; lra).
Qed.
Print Assumptions C62_mirror.
Example C62_hyp : rmap (map (fun r => (caL4 (rVal r) <~ caL3 (rVal r)) && (caH3 (rVal r) <~ caH4 (rVal r)) && (ofZ 12 <~ caH4 (rVal r)) && (caH4 (rVal r) <~ ofZ 13)))
  (rows_of (N := EX) I_Camarilla (mkCamP 8 [] (fun _ _ => true)) [kc 12 8 10 60]) = Ok [true].
Proof. vm_compute. reflexivity. Qed.
