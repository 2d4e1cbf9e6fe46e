(** * PropInd6: properties C45, C53, C54, C60 and C62. *)
From Coq Require Import Reals Lra ZArith Lia Bool List.
From Verif Require Import Base Num XReal Order OrderMore FloatLaws FloatOrder FloatBounds SpecNum B64 Lits Containers Ta TaTools TaAvg TaRange SpecTa Klines RSum XrMore
  IndBase IndTrend IndChannel IndOsc IndTools IndForms IndForms2 IndForms3 IndForms4 IndFormsSpec IndBounds IndBounds2 PropInd1 PropInd5.
Import ListNotations.
Set Implicit Arguments.
Open Scope Z_scope.
Local Notation highs := (map (fun c => cHigh c)).
Local Notation lows := (map (fun c => cLow c)).
Local Notation closes := (map (fun c => cClose c)).

(** ** C45 *)
(** The TR entry is the largest of high - low, high - prevClose and low - prevClose (no absolute values);
    the first bar uses 0 for the missing previous close. *)
Theorem C45_TR (N : Num) (p : Z) (kl : list Candle) (rows : list (row AtrV)) (i : nat) (r : row AtrV) (c : Candle) :
  rows_of I_Atr p kl = Ok rows -> nth_error rows i = Some r -> nth_error kl i = Some c ->
  let pc := match i with O => ofZ 0 | S j => match nth_error kl j with Some c' => cClose c' | None => ofZ 0 end end in
  aTR (rVal r) = fmax (cHigh c -~ cLow c) (fmax (cHigh c -~ pc) (cLow c -~ pc)).
Proof.
  intros E Er Ec pc. rewrite Atr_ind_T in E. injection E as <-. apply tab_some in Er as [Hi ->]. cbn [rVal atrG aTR]. unfold trF.
  apply cn_some in Ec as <-. replace pc with (match i with O => fzero | S j => cClose (cn kl j) end); [reflexivity|].
  unfold pc. destruct i as [|j]; [reflexivity|]. now rewrite cn_in by lia.
Qed.
Print Assumptions C45_TR.
(** In exact arithmetic that is the true range exactly when the previous close is not above the high. *)
Theorem C45_true_range_iff (p : Z) (kl : list (Candle (N := XR))) (rows : list (row AtrV)) (j : nat) (r : row AtrV) (c' c : Candle) (h l pc : R) :
  rows_of I_Atr p kl = Ok rows -> nth_error rows (S j) = Some r -> nth_error kl j = Some c' -> nth_error kl (S j) = Some c ->
  cHigh c = Fin h -> cLow c = Fin l -> cClose c' = Fin pc -> (l <= h)%R ->
  exists tr, aTR (rVal r) = Fin tr /\ (tr = true_range h l pc <-> (pc <= h)%R).
Proof.
  intros E Er Ec' Ec Hh Hl Hp Hlh. pose proof (C45_TR p kl (S j) E Er Ec) as T. cbv beta iota zeta in T. rewrite Ec', Hh, Hl, Hp in T.
  change (@fsub XR (Fin h) (Fin l)) with (Fin (h - l)) in T. change (@fsub XR (Fin h) (Fin pc)) with (Fin (h - pc)) in T. change (@fsub XR (Fin l) (Fin pc)) with (Fin (l - pc)) in T.
  rewrite !xr_max in T. eexists. split; [exact T|]. unfold true_range, Rmax, Rabs. 
  repeat (destruct (Rle_dec _ _) || destruct (Rcase_abs _)); split; intros; lra.
Qed.
Print Assumptions C45_true_range_iff.
(** a gap down: previous close 100, next bar 80-90: 10 is reported, the true range is 20 *)
Theorem C45_refuted :
  rmap (map (fun r => aTR (rVal r) ==~ fz 10)) (rows_of (N := EX) I_Atr 14 [kd 100 100 100 100 1 60; kd 85 90 80 85 1 120]) = Ok [false; true] /\
  (true_range 90 80 100 = 20)%R.
Proof. split; [vm_compute; reflexivity|]. unfold true_range, Rmax, Rabs. repeat (destruct (Rle_dec _ _) || destruct (Rcase_abs _)); lra. Qed.
Print Assumptions C45_refuted.
Example C45_hyp : rmap (map (fun r => aTR (rVal r) ==~ fz 6)) (rows_of (N := EX) I_Atr 3 [kd 7 9 5 7 1 60; kd 9 13 8 10 1 120]) = Ok [false; true].
Proof. vm_compute. reflexivity. Qed.

(** ** C53 *)
Lemma price_no_nan (m : Model) (xs : list (@F (num m))) : Forall (price m) xs -> no_nan xs.
Proof. intros H. eapply Forall_impl; [|exact H]. intros x. apply price_nan. Qed.
Lemma Forall_good (m : Model) (xs : list (@F (num m))) : Forall (price m) xs -> Forall (goodv m) xs.
Proof. intros H. eapply Forall_impl; [|exact H]. intros x Hx. now apply price_good. Qed.
Lemma ext_number (m : Model) (x y : @F (num m)) r : goodv m x -> ext m x = ext m y -> number m y r -> number m x r.
Proof. intros [H _] E Hy. apply number_ext in Hy as [_ Hy]. apply number_ext. split; [exact H|congruence]. Qed.
Lemma ngt_number (m : Model) (x y : @F (num m)) a b : ngt (ext m) x y -> number m x a -> number m y b -> (a <= b)%R.
Proof. intros H Ha Hb. apply number_ext in Ha as [_ Ha], Hb as [_ Hb]. unfold ngt in H. rewrite Ha, Hb in H. cbn in H. now apply Rltb_f in H. Qed.

(** Donchian: the upper line is the largest close of the last [p] candles, the lower the smallest, the middle their mean;
    the close lies between them. *)
Theorem C53_Donchian (m : Model) (p : Z) (kl : list (Candle (N := num m))) :
  1 <= p -> Forall (price m) (closes kl) ->
  exists rows, rows_of I_Donchian p kl = Ok rows /\ length rows = length kl /\
  forall i r c, nth_error rows i = Some r -> nth_error kl i = Some c ->
    max_of (bUpper (rVal r)) (window (closes kl) i (Z.to_nat p)) /\ min_of (bLower (rVal r)) (window (closes kl) i (Z.to_nat p)) /\
    bMiddle (rVal r) = (bUpper (rVal r) +~ bLower (rVal r)) /~ ofZ 2 /\
    exists l x u, number m (bLower (rVal r)) l /\ number m (cClose c) x /\ number m (bUpper (rVal r)) u /\ (l <= x <= u)%R.
Proof.
  intros Hp Hc. destruct (@Donchian_T _ (ord_laws m) p kl Hp (price_no_nan Hc)) as (u & l & Hu & Hl & E).
  eexists. split; [exact E|]. split; [apply tab_length|]. intros i r c Er Ec. apply tab_some in Er as [Hi ->]. cbn [rVal bUpper bLower bMiddle].
  split; [exact (Hu i Hi)|]. split; [exact (Hl i Hi)|].
  assert (W : Forall (goodv m) (window (closes kl) i (Z.to_nat p))) by (apply Forall_window; now apply Forall_good).
  assert (WP : Forall (price m) (window (closes kl) i (Z.to_nat p))) by now apply Forall_window.
  destruct (max_facts W (Hu i Hi)) as (U1 & U2 & ux & U3 & U4), (min_facts W (Hl i Hi)) as (L1 & L2 & lx & L3 & L4).
  split.
  { apply (al_half (rl_A (rnd_laws m))). apply (al_add (rl_A (rnd_laws m))); [apply U1|apply L1]. }
  assert (IW : In (cClose c) (window (closes kl) i (Z.to_nat p))) by (apply in_window; [lia|]; rewrite nth_error_map, Ec; reflexivity).
  rewrite Forall_forall in WP. destruct (WP _ U3) as (ur & Ur & _), (WP _ L3) as (lr & Lr & _), (WP _ IW) as (xr & Xr & _).
  assert (NU : number m (u i) ur) by (now apply ext_number with ux). assert (NL : number m (l i) lr) by (now apply ext_number with lx).
  exists lr, xr, ur. repeat split; auto.
  - eapply ngt_number; [exact (L2 _ IW)|exact NL|exact Xr].
  - eapply ngt_number; [exact (U2 _ IW)|exact Xr|exact NU].
Qed.
Print Assumptions C53_Donchian.
Corollary C53_Donchian_middle_exact (p : Z) (kl : list (Candle (N := num Exact))) (rows : list (row (@Band (num Exact)))) (i : nat) (r : row (@Band (num Exact))) (u l : R) :
  1 <= p -> Forall (price Exact) (closes kl) -> rows_of I_Donchian p kl = Ok rows -> nth_error rows i = Some r ->
  bUpper (rVal r) = Fin u -> bLower (rVal r) = Fin l -> bMiddle (rVal r) = Fin ((u + l) / 2).
Proof.
  intros Hp Hc E Er Hu Hl. destruct (@C53_Donchian Exact p kl Hp Hc) as (rows' & E' & Len & H).
  assert (Q : Ok rows' = Ok rows) by (transitivity (rows_of (N := num Exact) I_Donchian p kl); [symmetry; exact E'|exact E]). injection Q as ->. assert (Hi : (i < length kl)%nat) by (rewrite <- Len; apply nth_error_Some; intros Q'; assert (Some r = None) by (rewrite <- Er; exact Q'); discriminate).
  destruct (H i r (cn kl i) Er (cn_in kl Hi)) as (_ & _ & M & _). assert (M' : bMiddle (rVal r) = (bUpper (rVal r) +~ bLower (rVal r)) /~ ofZ 2) by exact M. rewrite M', Hu, Hl. cbn. destruct (Reqb_spec 2 0); [lra|reflexivity].
Qed.
Print Assumptions C53_Donchian_middle_exact.

(** Keltner: middle is the EMA of the closes; the bands lie on either side of it. *)
Lemma sane_tr (m : Model) (kl : list (Candle (N := num m))) B : ScaleLaw B (rd m) -> Forall (sane m) kl ->
  (forall i, (i < length kl)%nat -> fb (datum m) (ext m) B (-1) 1 (cLow (cn kl i)) /\ fb (datum m) (ext m) B (-1) 1 (cHigh (cn kl i)) /\ fb (datum m) (ext m) B (-1) 1 (cClose (cn kl i))) ->
  forall i, (i < length kl)%nat -> fb (datum m) (ext m) B 0 2 (trF kl i).
Proof.
  intros SL HS HB i Hi. apply trF_fb; auto. intros j Hj. destruct (HB j Hj) as (B1 & B2 & B3). destruct (sane_good HS Hj) as (G1 & G2 & G3 & G4 & G5).
  repeat split; auto; try apply B1; try apply B2; try apply B3. apply ngt_trans with (cClose (cn kl j)); [apply G3|exact G4|exact G5].
Qed.
Theorem C53_Keltner (m : Model) (p : Z) (kl : list (Candle (N := num m))) :
  1 <= p <= 2 ^ 51 -> Forall (sane m) kl ->
  exists rows, rows_of I_Keltner p kl = Ok rows /\ length rows = length kl /\
  forall i r, nth_error rows i = Some r ->
    exists l x u, number m (bLower (rVal r)) l /\ number m (bMiddle (rVal r)) x /\ number m (bUpper (rVal r)) u /\ (l <= x <= u)%R.
Proof.
  intros Hp HS. rewrite Keltner_T. eexists. split; [reflexivity|]. split; [apply tab_length|]. intros i r Er. apply tab_some in Er as [Hi ->]. cbn [rVal keltF bUpper bMiddle bLower].
  destruct (sane_fb HS) as (B & SL & HB).
  set (mid := emaF p _ i). set (a := rmaF p _ _ i *~ ofZ 2).
  assert (M : fb (datum m) (ext m) B (-1) 1 mid) by (apply emaF_fb; auto; try lia; intros j Hj; apply HB; lia).
  assert (Q : fb (datum m) (ext m) B 0 4 a).
  { unfold a, rmaF. change 0 with (0 * 2). change 4 with (2 * 2). apply (fb_mulZ (rnd_laws m) SL); try lia.
    apply rmaS_fb; auto; try lia. intros j Hj. apply sane_tr; auto. lia. }
  pose proof (rnd_laws m) as RL. pose proof (rl_A RL) as A.
  rewrite (al_minus A) by apply Q.
  assert (U : fb (datum m) (ext m) B (-1) 5 (mid +~ a)) by (change (-1) with (-1 + 0); change 5 with (1 + 4); apply (fb_add RL SL); (lia || assumption)).
  assert (D : fb (datum m) (ext m) B (-5) 1 (mid -~ a)) by (change (-5) with (-1 - 4); change 1 with (1 - 0); apply (fb_sub RL SL); (lia || assumption)).
  assert (NA : nng (datum m) (ext m) a).
  { destruct Q as (Q1 & q & Q2 & Q3). split; [exact Q1|]. rewrite Q2. cbn. apply Rltb_f. lra. }
  destruct (fb_num m M) as (rm & M1 & _), (fb_num m U) as (ru & U1 & _), (fb_num m D) as (rl & D1 & _). exists rl, rm, ru.
  repeat split; auto.
  - apply (@ngt_number m (mid -~ a) mid); auto. apply (ngt_lt RL); [apply D|apply M|]. apply (sub_le RL); [apply M|exact NA].
  - apply (@ngt_number m mid (mid +~ a)); auto. apply (ngt_lt RL); [apply M|apply U|]. apply (add_ge RL); [apply M|exact NA].
Qed.
Print Assumptions C53_Keltner.
(** in exact arithmetic the bands are symmetric about the middle *)
Theorem C53_Keltner_symmetric (p : Z) (kl : list (Candle (N := num Exact))) (rows : list (row (@Band (num Exact)))) (i : nat) (r : row (@Band (num Exact))) :
  1 <= p <= 2 ^ 51 -> Forall (sane Exact) kl -> rows_of I_Keltner p kl = Ok rows -> nth_error rows i = Some r ->
  exists l x u, bLower (rVal r) = Fin l /\ bMiddle (rVal r) = Fin x /\ bUpper (rVal r) = Fin u /\ (u - x = x - l)%R.
Proof.
  intros Hp HS E Er. destruct (@C53_Keltner Exact p kl Hp HS) as (rows' & E' & _ & H). assert (Q : Ok rows' = Ok rows) by (transitivity (rows_of (N := num Exact) I_Keltner p kl); [symmetry; exact E'|exact E]). injection Q as ->.
  destruct (H i r Er) as (l & x & u & H1 & H2 & H3 & _). exists l, x, u. cbn in H1, H2, H3. repeat split; auto.
  rewrite Keltner_T in E. injection E as <-. apply tab_some in Er as [Hi ->]. cbn [rVal keltF bUpper bMiddle bLower] in *.
  rewrite H2 in H1, H3. destruct (rmaF p _ _ i *~ ofZ 2) as [a| | |]; cbn in H1, H3; try discriminate. injection H1 as <-. injection H3 as <-. lra.
Qed.
Print Assumptions C53_Keltner_symmetric.
Example C53_hyp : rmap (map (fun r => (bLower (rVal r) ==~ fz 6) && (bMiddle (rVal r) ==~ fz 8) && (bUpper (rVal r) ==~ fz 10))) (rows_of (N := EX) I_Donchian 3 (flat [6; 10; 7; 9])) = Ok [false; true; true; false] /\
  rmap (map (fun r => (bLower (rVal r) <~ bMiddle (rVal r)) && (bMiddle (rVal r) <~ bUpper (rVal r)))) (rows_of (N := EX) I_Keltner 3 (flat [6; 10; 7; 9])) = Ok [false; true; true; true].
Proof. split; vm_compute; reflexivity. Qed.
