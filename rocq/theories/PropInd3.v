(** * PropInd3: properties C46, C47, C48, C49 (and the TraderXO case of C64). *)
From Verif Require Import Base Num Order OrderMore B64 XReal Lits Containers Ta TaTools SpecTa Sides Klines
  IndBase IndTrend IndTools IndSides SpecInd IndSignals SpecInd2 IndForms IndForms2 IndFormsSpec IndMachines PropInd1.
Set Implicit Arguments.

Local Notation closes := (map (fun c => cClose c)).

(** ** C46 *)
(** [up]: the direction of the trend, bar by bar. *)
Theorem C46_SuperTrend_partial (N : Num) (O : OrdLaws N) (I : InfLaws N) (S1 : SignLaws N) (p : STP) (kl : list Candle) (rows : list (row STV)) :
  rows_of I_SuperTrend p kl = Ok rows ->
  length rows = length kl /\
  exists up : list bool, length up = length kl /\ (kl <> [] -> nth_error up 0 = Some true) /\
  forall i r r' c c' u u',
    nth_error rows (S i) = Some r -> nth_error rows i = Some r' -> nth_error kl (S i) = Some c -> nth_error kl i = Some c' ->
    nth_error up (S i) = Some u -> nth_error up i = Some u' ->
    (* start markers exactly on flips, carrying the new stop *)
    sUpBegin (rVal r) = (if u && negb u' then sUp (rVal r) else ofZ 0) /\
    sDnBegin (rVal r) = (if negb u && u' then sDn (rVal r) else ofZ 0) /\
    (* the trend flips exactly when the close crosses the previous stop *)
    (nn (sUp (rVal r')) -> nn (sDn (rVal r')) ->
     u = if u' then negb (cClose c <~ sUp (rVal r')) else cClose c >~ sDn (rVal r')) /\
    (* the stop does not move against the trend as long as the previous close was beyond it *)
    (cClose c' >~ sUp (rVal r') = true -> sUp (rVal r) <~ sUp (rVal r') = false) /\
    (cClose c' <~ sDn (rVal r') = true -> sDn (rVal r') <~ sDn (rVal r) = false).
Proof.
  intros E. destruct (@supertrend_rows N p kl rows E) as (L & tr & Lt & T0 & _ & St). split; [exact L|].
  assert (PM : forall i t, nth_error tr i = Some t -> t = ofZ 1 \/ t = ofZ (-1)).
  { intros i. induction i as [|i IH]; intros t Ht; [left; auto|].
    assert (Si : (S i < length kl)%nat) by (eapply some_lt; eassumption).
    destruct (nth_error tr i) as [t'|] eqn:Et'; [|apply nth_error_None in Et'; lia].
    destruct (nth_error rows (S i)) as [r|] eqn:Er; [|apply nth_error_None in Er; lia].
    destruct (nth_error rows i) as [r'|] eqn:Er'; [|apply nth_error_None in Er'; lia].
    destruct (St i r r' t t' Er Er' Ht Et') as (a & _ & ->). unfold st_step. cbn [r_trend].
    assert (Nz t' (ofZ 1) = ofZ 1 \/ Nz t' (ofZ 1) = ofZ (-1)) as Hn by (unfold Nz; destruct (isNaN t'); auto).
    destruct (_ && _); [auto|]. destruct (_ && _); auto. }
  exists (map (fun t => t ==~ ofZ 1) tr). rewrite map_length. split; [exact Lt|]. split.
  { intros Hk. rewrite nth_error_map. destruct (nth_error tr 0) as [t|] eqn:Et.
    - rewrite (T0 t eq_refl). cbn. now rewrite (sl_11 S1).
    - apply nth_error_None in Et. destruct kl; [congruence|cbn in *; lia]. }
  intros i r r' c c' u u' Er Er' Ec Ec' Eu Eu'. rewrite nth_error_map in Eu, Eu'.
  destruct (nth_error tr (S i)) as [t|] eqn:Et; [|discriminate]. destruct (nth_error tr i) as [t'|] eqn:Et'; [|discriminate].
  injection Eu as <-. injection Eu' as <-. destruct (St i r r' t t' Er Er' Et Et') as (a & R & ->).
  apply cn_some in Ec as <-. apply cn_some in Ec' as <-.
  set (h := (cHigh (cn kl (S i)) +~ cLow (cn kl (S i))) /~ ofZ 2) in *.
  assert (Ht' : Nz t' (ofZ 1) = t').
  { unfold Nz. destruct (PM _ _ Et') as [->| ->]; now rewrite ?(sl_n1 S1), ?(sl_nm S1). }
  rewrite R. unfold st_step. cbn [r_up r_upb r_dn r_dnb r_trend sUp sDn sUpBegin sDnBegin]. rewrite Ht'.
  set (U := h -~ (ofZ (stMult p) *~ a)). set (D := h +~ (ofZ (stMult p) *~ a)).
  set (up1 := Nz (sUp (rVal r')) U). set (dn1 := Nz (sDn (rVal r')) D).
  set (T := if (t' ==~ ofZ (-1)) && (dn1 <~ cClose (cn kl (S i))) then ofZ 1
     else if (t' ==~ ofZ 1) && (cClose (cn kl (S i)) <~ up1) then ofZ (-1) else t').
  assert (PT : T = ofZ 1 \/ T = ofZ (-1)).
  { unfold T. destruct (_ && _); [auto|]. destruct (_ && _); [auto|]. exact (PM _ _ Et'). }
  assert (B : forall x : F, x = ofZ 1 \/ x = ofZ (-1) -> (x ==~ ofZ (-1)) = negb (x ==~ ofZ 1)).
  { intros x [->| ->]; now rewrite ?(sl_11 S1), ?(sl_1m S1), ?(sl_m1 S1), ?(sl_mm S1). }
  assert (B' := B t' (PM _ _ Et')). assert (BT := B T PT).
  split; [now rewrite B'|]. split; [rewrite B', BT; destruct (T ==~ ofZ 1), (t' ==~ ofZ 1); reflexivity|]. split; [|split].
  - intros N1 N2. unfold T. assert (up1 = sUp (rVal r')) as -> by (unfold up1, Nz; now rewrite N1).
    assert (dn1 = sDn (rVal r')) as -> by (unfold dn1, Nz; now rewrite N2). rewrite B'. destruct (PM _ _ Et') as [->| ->].
    + rewrite (sl_11 S1). cbn [negb andb]. destruct (cClose (cn kl (S i)) <~ sUp (rVal r')); cbn [negb]; now rewrite ?(sl_m1 S1), ?(sl_11 S1).
    + rewrite (sl_m1 S1). cbn [negb andb]. destruct (sDn (rVal r') <~ cClose (cn kl (S i))); now rewrite ?(sl_m1 S1), ?(sl_11 S1).
  - intros HC. destruct (lt_nn O _ _ HC) as [N1 _]. assert (up1 = sUp (rVal r')) as -> by (unfold up1, Nz; now rewrite N1).
    rewrite HC. apply (fmax_r O I).
  - intros HC. destruct (lt_nn O _ _ HC) as [_ N1]. assert (dn1 = sDn (rVal r')) as -> by (unfold dn1, Nz; now rewrite N1).
    rewrite HC. apply (fmin_r O I).
Qed.
Print Assumptions C46_SuperTrend_partial.

Lemma flip_between (u : list bool) (b : bool) i j : (i < j)%nat -> nth_error u i = Some b -> nth_error u j = Some (negb b) ->
  exists k, (i <= k < j)%nat /\ nth_error u k = Some b /\ nth_error u (S k) = Some (negb b).
Proof.
  induction j as [|j IH]; intros Hij Hi Hj; [lia|]. destruct (Nat.eq_dec i j) as [->|Hne]; [exists j; split; [lia|auto]|].
  destruct (nth_error u j) as [c|] eqn:Ec; [|apply nth_error_None in Ec; assert (S j < length u)%nat by (apply nth_error_Some; congruence); lia].
  destruct (Bool.bool_dec c b) as [->|Hcb]; [exists j; split; [lia|auto]|].
  destruct IH as (k & Hk & K1 & K2); [lia|exact Hi|destruct c, b; cbn; congruence|exists k; split; [lia|auto]].
Qed.
(** Start markers strictly alternate, as long as no band of a later bar is the number zero (a zero is how "no marker" is reported). *)
Theorem C46_alternate (N : Num) (O : OrdLaws N) (I : InfLaws N) (S1 : SignLaws N) (p : STP) (kl : list Candle) (rows : list (row STV)) :
  rows_of I_SuperTrend p kl = Ok rows ->
  (forall i r, (1 <= i)%nat -> nth_error rows i = Some r -> sUp (rVal r) ==~ ofZ 0 = false /\ sDn (rVal r) ==~ ofZ 0 = false) ->
  forall i j r r', (1 <= i < j)%nat -> nth_error rows i = Some r -> nth_error rows j = Some r' ->
  (sUpBegin (rVal r) ==~ ofZ 0 = false -> sUpBegin (rVal r') ==~ ofZ 0 = false ->
   exists k rk, (i < k < j)%nat /\ nth_error rows k = Some rk /\ sDnBegin (rVal rk) ==~ ofZ 0 = false) /\
  (sDnBegin (rVal r) ==~ ofZ 0 = false -> sDnBegin (rVal r') ==~ ofZ 0 = false ->
   exists k rk, (i < k < j)%nat /\ nth_error rows k = Some rk /\ sUpBegin (rVal rk) ==~ ofZ 0 = false).
Proof.
  intros E HZ i j r r' Hij Hr Hr'. destruct (C46_SuperTrend_partial O I S1 p kl E) as (L & up & Lu & _ & St).
  assert (Get : forall k, (k < length kl)%nat -> exists rk ck uk, nth_error rows k = Some rk /\ nth_error kl k = Some ck /\ nth_error up k = Some uk).
  { intros k Hk. destruct (nth_error rows k) eqn:E1; [|apply nth_error_None in E1; lia].
    destruct (nth_error kl k) eqn:E2; [|apply nth_error_None in E2; lia].
    destruct (nth_error up k) eqn:E3; [|apply nth_error_None in E3; lia]. eauto 7. }
  assert (Lj : (j < length kl)%nat) by (rewrite <- L; apply nth_error_Some; congruence).
  assert (Mk : forall k rk, (1 <= k)%nat -> nth_error rows k = Some rk -> exists u u', nth_error up k = Some u /\ nth_error up (pred k) = Some u' /\
     sUpBegin (rVal rk) = (if u && negb u' then sUp (rVal rk) else ofZ 0) /\ sDnBegin (rVal rk) = (if negb u && u' then sDn (rVal rk) else ofZ 0)).
  { intros k rk Hk1 Hk. assert (k < length kl)%nat by (rewrite <- L; apply nth_error_Some; congruence). destruct k as [|k]; [lia|].
    destruct (Get (S k)) as (r0 & c0 & u0 & A1 & A2 & A3); [lia|]. destruct (Get k) as (r1 & c1 & u1 & B1 & B2 & B3); [lia|].
    exists u0, u1. cbn [pred]. destruct (St k rk r1 c0 c1 u0 u1) as (M1 & M2 & _); auto. }
  destruct (Mk _ _ (proj1 Hij) Hr) as (u & u0 & U1 & U2 & U3 & U4).
  destruct (Mk j r') as (w & w0 & W1 & W2 & W3 & W4); [lia|exact Hr'|].
  split; intros Z1 Z2.
  - rewrite U3 in Z1. rewrite W3 in Z2. destruct u, u0; cbn [andb negb] in Z1; try (rewrite (sl_00 S1) in Z1; discriminate).
    destruct w, w0; cbn [andb negb] in Z2; try (rewrite (sl_00 S1) in Z2; discriminate).
    assert (i <> pred j) by (intros ->; congruence).
    destruct (@flip_between up true i (pred j)) as (k & Hk & K1 & K2); [lia|exact U1|exact W2|].
    destruct (Get (S k)) as (rk & ck & uk & A1 & A2 & A3); [lia|]. exists (S k), rk. split; [lia|]. split; [exact A1|].
    destruct (Mk (S k) rk) as (v & v0 & V1 & V2 & V3 & V4); [lia|exact A1|]. cbn [pred] in V2. rewrite K1 in V2. rewrite K2 in V1.
    injection V1 as <-. injection V2 as <-. rewrite V4. cbn. now apply (HZ (S k) rk); [lia|].
  - rewrite U4 in Z1. rewrite W4 in Z2. destruct u, u0; cbn [andb negb] in Z1; try (rewrite (sl_00 S1) in Z1; discriminate).
    destruct w, w0; cbn [andb negb] in Z2; try (rewrite (sl_00 S1) in Z2; discriminate).
    assert (i <> pred j) by (intros ->; congruence).
    destruct (@flip_between up false i (pred j)) as (k & Hk & K1 & K2); [lia|exact U1|exact W2|].
    destruct (Get (S k)) as (rk & ck & uk & A1 & A2 & A3); [lia|]. exists (S k), rk. split; [lia|]. split; [exact A1|].
    destruct (Mk (S k) rk) as (v & v0 & V1 & V2 & V3 & V4); [lia|exact A1|]. cbn [pred] in V2. rewrite K1 in V2. rewrite K2 in V1.
    injection V1 as <-. injection V2 as <-. rewrite V3. cbn. now apply (HZ (S k) rk); [lia|].
Qed.
Print Assumptions C46_alternate.

(** The ratchet fails when the previous close is not beyond the stop: five flat candles, no marker on any bar
    (the trend stays up), and the stop falls from bar 2 to bar 3. *)
Definition flat5 : list (Candle (N := EX)) := [kd 10 10 10 10 1 60; kd 10 11 9 10 1 120; kd 10 10 10 10 1 180; kd 10 11 9 10 1 240; kd 10 12 8 10 1 300].
Theorem C46_ratchet_refuted : exists (p : STP) (kl : list (Candle (N := EX))) (rows : list (row STV)),
  rows_of I_SuperTrend p kl = Ok rows /\
  (forall r, In r rows -> sUpBegin (rVal r) ==~ ofZ 0 = true /\ sDnBegin (rVal r) ==~ ofZ 0 = true) /\
  exists r2 r3, nth_error rows 2 = Some r2 /\ nth_error rows 3 = Some r3 /\ sUp (rVal r3) <~ sUp (rVal r2) = true.
Proof.
  exists (mkSTP 3 1 true), flat5.
  assert (B : rmap (fun rows => forallb (fun x : row STV => (sUpBegin (rVal x) ==~ ofZ 0) && (sDnBegin (rVal x) ==~ ofZ 0)) rows &&
      match nth_error rows 2, nth_error rows 3 with Some r2, Some r3 => sUp (rVal r3) <~ sUp (rVal r2) | _, _ => false end)
    (rows_of I_SuperTrend (mkSTP 3 1 true) flat5) = Ok true) by (vm_compute; reflexivity).
  destruct (rows_of I_SuperTrend (mkSTP 3 1 true) flat5) as [rows|] eqn:ER; [|discriminate B]. apply (f_equal (fun r => match r with Ok b => b | Panic => false end)) in B. cbn [rmap bind] in B.
  apply andb_true_iff in B as [B1 B2]. exists rows. split; [reflexivity|]. split.
  - intros r Hr. rewrite forallb_forall in B1. specialize (B1 r Hr). now apply andb_true_iff in B1.
  - assert (Q : forall l : list (row (STV (N := EX))), (match nth_error l 2, nth_error l 3 with Some r2, Some r3 => sUp (rVal r3) <~ sUp (rVal r2) | _, _ => false end) = true ->
      exists r2 r3, nth_error l 2 = Some r2 /\ nth_error l 3 = Some r3 /\ sUp (rVal r3) <~ sUp (rVal r2) = true).
    { intros l. destruct (nth_error l 2) as [r2|]; [|discriminate]. destruct (nth_error l 3) as [r3|]; [|discriminate]. eauto. }
    exact (Q rows B2).
Qed.
Print Assumptions C46_ratchet_refuted.

(** A series on which the trend flips down and up again, with non-zero bands. *)
Definition updown : list (Candle (N := EX)) :=
  map (fun q => kd (fst q) (fst q + 1) (fst q - 1) (fst q) 1 (snd q)) [(100, 60); (101, 120); (102, 180); (80, 240); (79, 300); (78, 360); (120, 420); (121, 480); (60, 540)].
Example C46_hyp :
  rmap (map (fun x => negb (sUpBegin (rVal x) ==~ fz 0))) (rows_of I_SuperTrend (mkSTP 3 1 true) updown) = Ok [false; false; false; false; false; false; true; false; false] /\
  rmap (map (fun x => negb (sDnBegin (rVal x) ==~ fz 0))) (rows_of I_SuperTrend (mkSTP 3 1 true) updown) = Ok [false; false; false; true; false; false; false; false; true] /\
  rmap (fun rows => forallb (fun x => negb (sUp (rVal x) ==~ fz 0) && negb (sDn (rVal x) ==~ fz 0)) (tl rows)) (rows_of I_SuperTrend (mkSTP 3 1 true) updown) = Ok true.
Proof. repeat split; vm_compute; reflexivity. Qed.

(** PivotPointSuperTrend: the direction is 0 until the first crossing and then +1 or -1. *)
Theorem C46_PivotPointSuperTrend_partial (N : Num) (O : OrdLaws N) (I : InfLaws N) (p : PPP) (kl : list Candle) (rows : list (row STV)) :
  rows_of I_PPST p kl = Ok rows ->
  length rows = length kl /\
  exists (dir : list Z) (lower upper : list F), length dir = length kl /\ length lower = length kl /\ length upper = length kl /\
  (kl <> [] -> nth_error dir 0 = Some 0) /\
  forall i r c c' d d' l l' h h',
    nth_error rows (S i) = Some r -> nth_error kl (S i) = Some c -> nth_error kl i = Some c' ->
    nth_error dir (S i) = Some d -> nth_error dir i = Some d' ->
    nth_error lower (S i) = Some l -> nth_error lower i = Some l' -> nth_error upper (S i) = Some h -> nth_error upper i = Some h' ->
    (d = 0 \/ d = 1 \/ d = -1) /\
    (* the direction changes exactly when the close crosses the previous band *)
    d = (if cClose c >~ h' then 1 else if cClose c <~ l' then -1 else d') /\
    (* the lines shown and the start markers *)
    sUp (rVal r) = (if (d =? 1) && (d' =? 1) then l else ofZ 0) /\
    sUpBegin (rVal r) = (if (d =? 1) && (d' =? -1) then l else ofZ 0) /\
    sDn (rVal r) = (if (d =? -1) && (d' =? -1) then h else ofZ 0) /\
    sDnBegin (rVal r) = (if (d =? -1) && (d' =? 1) then h else ofZ 0) /\
    (* the ratchet *)
    (cClose c' >~ l' = true -> l <~ l' = false) /\ (cClose c' <~ h' = true -> h' <~ h = false).
Proof.
  intros E. destruct (@ppst_rows N p kl rows E) as (L & sr & Ls & Z0 & Out & St). split; [exact L|].
  exists (map p_trend sr), (map p_up sr), (map p_dn sr). rewrite !map_length. do 3 (split; [exact Ls|]). split.
  { intros Hk. rewrite nth_error_map. destruct (nth_error sr 0) as [s|] eqn:Es; [rewrite (Z0 s eq_refl); reflexivity|].
    apply nth_error_None in Es. destruct kl; [congruence|cbn in *; lia]. }
  assert (PM : forall i s, nth_error sr i = Some s -> p_trend s = 0 \/ p_trend s = 1 \/ p_trend s = -1).
  { intros i. induction i as [|i IH]; intros s Hs; [rewrite (Z0 s Hs); now left|].
    destruct (nth_error sr i) as [s'|] eqn:Es'; [|apply nth_error_None in Es'; assert (S i < length sr)%nat by (apply nth_error_Some; congruence); lia].
    destruct (St i s s' Hs Es') as (ph & pl & a & ->). unfold pp_step. cbn [p_trend].
    destruct (_ <~ _); [auto|]. destruct (_ <~ _); auto. }
  intros i r c c' d d' l l' h h' Er Ec Ec' Ed Ed' El El' Eh Eh'. rewrite nth_error_map in *.
  destruct (nth_error sr (S i)) as [s|] eqn:Es; [|discriminate]. destruct (nth_error sr i) as [s'|] eqn:Es'; [|discriminate].
  cbn [option_map] in *. injection Ed as <-. injection Ed' as <-. injection El as <-. injection El' as <-. injection Eh as <-. injection Eh' as <-.
  split; [exact (PM _ _ Es)|]. rewrite (Out _ _ _ Er Es). destruct (St i s s' Es Es') as (ph & pl & a & ->).
  apply cn_some in Ec as <-. apply cn_some in Ec' as <-. unfold pp_step. cbn [p_trend p_up p_dn p_out sUp sDn sUpBegin sDnBegin].
  split; [reflexivity|].
  set (T := if p_dn s' <~ cClose (cn kl (S i)) then 1 else if cClose (cn kl (S i)) <~ p_up s' then -1 else p_trend s').
  split; [destruct (T =? 1); reflexivity|]. split; [destruct (T =? 1); reflexivity|].
  split; [destruct (Z.eqb_spec T (-1)) as [->|]; reflexivity|]. split; [destruct (Z.eqb_spec T (-1)) as [->|]; reflexivity|].
  split; intros HC; rewrite HC; [apply (fmax_r O I)|apply (fmin_r O I)].
Qed.
Print Assumptions C46_PivotPointSuperTrend_partial.

(** ** C47 *)
Theorem C47_UTBot (N : Num) (O : OrdLaws N) (I : InfLaws N) (p : UTP) (kl : list Candle) (rows : list (row UTV)) :
  rows_of I_UTBot p kl = Ok rows ->
  forall i r r' c c', nth_error rows (S i) = Some r -> nth_error rows i = Some r' ->
    nth_error kl (S i) = Some c -> nth_error kl i = Some c' ->
    (cClose c' >~ uValue (rVal r') = true -> cClose c >~ uValue (rVal r') = true -> uValue (rVal r) <~ uValue (rVal r') = false) /\
    (cClose c' <~ uValue (rVal r') = true -> cClose c <~ uValue (rVal r') = true -> uValue (rVal r') <~ uValue (rVal r) = false).
Proof.
  intros E i r r' c c' Er Er' Ec Ec'. destruct (@utbot_rows N p kl rows E) as (_ & _ & atr & _ & St).
  destruct (St i r r' Er Er') as (_ & a & _ & ->). apply cn_some in Ec as <-. apply cn_some in Ec' as <-. unfold ut_step. split; intros H1 H2.
  - rewrite H1, H2. cbn [andb]. apply (fmax_l O I).
  - rewrite H1, H2, (lt_excl O _ _ H1), (lt_excl O _ _ H2). cbn [andb]. apply (fmin_l O I).
Qed.
Print Assumptions C47_UTBot.
(** The stop itself, for every float arithmetic: [period] times the average true range away from the close. *)
Theorem C47_rule (N : Num) (p : UTP) (kl : list Candle) (rows : list (row UTV)) :
  rows_of I_UTBot p kl = Ok rows ->
  exists atr, Atr (map (fun c => cHigh c) kl) (map (fun c => cLow c) kl) (closes kl) (utAtr p) = Ok atr /\
  forall i r r' c c' a, nth_error rows (S i) = Some r -> nth_error rows i = Some r' ->
    nth_error kl (S i) = Some c -> nth_error kl i = Some c' -> nth_error atr (S i) = Some a ->
    uClose (rVal r) = cClose c /\
    let stop := uValue (rVal r') in
    uValue (rVal r) =
      if (cClose c >~ stop) && (cClose c' >~ stop) then fmax stop (cClose c -~ ofZ (utPeriod p) *~ a)
      else if (cClose c <~ stop) && (cClose c' <~ stop) then fmin stop (cClose c +~ ofZ (utPeriod p) *~ a)
      else if cClose c >~ stop then cClose c -~ ofZ (utPeriod p) *~ a
      else cClose c +~ ofZ (utPeriod p) *~ a.
Proof.
  intros E. destruct (@utbot_rows N p kl rows E) as (_ & _ & atr & Ea & St). exists atr. split; [exact Ea|].
  intros i r r' c c' a Er Er' Ec Ec' Eat. destruct (St i r r' Er Er') as (Hc & a' & Ha & ->). rewrite Ha in Eat. injection Eat as ->.
  apply cn_some in Ec as <-. apply cn_some in Ec' as <-. split; [exact Hc|]. reflexivity.
Qed.
Print Assumptions C47_rule.
Example C47_hyp : rmap (map (fun x => uValue (rVal x) <~ uClose (rVal x))) (rows_of I_UTBot (mkUTP 1 3) updown) = Ok [false; false; false; false; false; false; true; true; false].
Proof. vm_compute. reflexivity. Qed.

(** ** C48 *)
(** [Buy] bars and [Sell] bars alternate: between two of a kind lies one of the other. *)
Definition alternates (s : list Side) : Prop :=
  forall i j, (i < j)%nat ->
    (nth_error s i = Some Buy -> nth_error s j = Some Buy -> exists k, (i < k < j)%nat /\ nth_error s k = Some Sell) /\
    (nth_error s i = Some Sell -> nth_error s j = Some Sell -> exists k, (i < k < j)%nat /\ nth_error s k = Some Buy).
Theorem C48_TraderXO (N : Num) (O : OrdLaws N) (p : XOP) (kl : list Candle) :
  exists s, sides_of I_TraderXO p kl = Ok s /\ length s = length kl /\ alternates s.
Proof.
  set (g := fun i => mkXOV (emaF (xFastP p) (fun i => cClose (cn kl i)) i) (emaF (xSlowP p) (fun i => cClose (cn kl i)) i)).
  assert (X : forall i, (xSlow (g i) <~ xFast (g i)) = true -> (xFast (g i) <~ xSlow (g i)) = false) by (intros i; apply (lt_excl O)).
  assert (X' : forall i, (xFast (g i) <~ xSlow (g i)) = true -> (xSlow (g i) <~ xFast (g i)) = false) by (intros i; apply (lt_excl O)).
  exists (tab (length kl) (xo_side g)). split.
  { unfold sides_of, AnalysisSide. cbn [Sides I_TraderXO].
    match goal with |- context [GetData ?a ?b ?c ?d] => change (GetData a b c d) with (rows_of I_TraderXO p kl) end.
    rewrite TraderXO_T. cbn [bind]. rewrite (traderxo_T g X). reflexivity. }
  split; [apply tab_length|]. intros i j Hij. split; intros Ei Ej.
  - apply tab_some in Ei as [Li Ei]. apply tab_some in Ej as [Lj Ej]. symmetry in Ei, Ej.
    apply (xo_buy g) in Ei as (I1 & I2 & I3). apply (xo_buy g) in Ej as (J1 & J2 & J3).
    destruct (@opened_between (fun i => xSlow (g i) <~ xFast (g i)) (fun i => xFast (g i) <~ xSlow (g i)) i j) as (k & Hk & K1 & K2); [exact X|lia|exact I2|exact J3|].
    exists k. split; [exact Hk|]. rewrite tab_nth_error by lia. f_equal. destruct k as [|k]; [lia|]. unfold xo_side, decide.
    rewrite (X' _ K1), K1, K2. reflexivity.
  - apply tab_some in Ei as [Li Ei]. apply tab_some in Ej as [Lj Ej]. symmetry in Ei, Ej.
    apply (xo_sell g) in Ei as (I1 & I2 & I3). apply (xo_sell g) in Ej as (J1 & J2 & J3).
    destruct (@opened_between (fun i => xFast (g i) <~ xSlow (g i)) (fun i => xSlow (g i) <~ xFast (g i)) i j) as (k & Hk & K1 & K2); [exact X'|lia|exact I2|exact J3|].
    exists k. split; [exact Hk|]. rewrite tab_nth_error by lia. f_equal. destruct k as [|k]; [lia|]. unfold xo_side, decide.
    rewrite K1, K2. reflexivity.
Qed.
Print Assumptions C48_TraderXO.
Example C48_hyp : sides_of I_TraderXO (mkXOP 1 2) updown = Ok [Hold; Buy; Hold; Sell; Hold; Hold; Buy; Hold; Sell].
Proof. vm_compute. reflexivity. Qed.

(** The TraderXO case of C64: a Buy is a bar with the fast EMA above the slow one and no such earlier bar
    since the last bar with the fast EMA below; a Sell mirrors it. *)
Definition fresh (a b : nat -> Prop) (i : nat) : Prop :=
  a i /\ forall j, (1 <= j < i)%nat -> a j -> exists k, (j < k < i)%nat /\ b k.
Theorem C64_TraderXO (N : Num) (O : OrdLaws N) (p : XOP) (kl : list Candle) :
  exists rows s, rows_of I_TraderXO p kl = Ok rows /\ sides_of I_TraderXO p kl = Ok s /\ length s = length kl /\
  let above i := exists r, nth_error rows i = Some r /\ xSlow (rVal r) <~ xFast (rVal r) = true in
  let below i := exists r, nth_error rows i = Some r /\ xFast (rVal r) <~ xSlow (rVal r) = true in
  forall i, (1 <= i)%nat ->
    (nth_error s i = Some Buy <-> fresh above below i) /\ (nth_error s i = Some Sell <-> fresh below above i).
Proof.
  set (g := fun i => mkXOV (emaF (xFastP p) (fun i => cClose (cn kl i)) i) (emaF (xSlowP p) (fun i => cClose (cn kl i)) i)).
  assert (X : forall i, (xSlow (g i) <~ xFast (g i)) = true -> (xFast (g i) <~ xSlow (g i)) = false) by (intros i; apply (lt_excl O)).
  assert (X' : forall i, (xFast (g i) <~ xSlow (g i)) = true -> (xSlow (g i) <~ xFast (g i)) = false) by (intros i; apply (lt_excl O)).
  exists (tab (length kl) (fun i => mkRow (tm kl i) (g i))), (tab (length kl) (xo_side g)).
  split; [apply TraderXO_T|]. split.
  { unfold sides_of, AnalysisSide. cbn [Sides I_TraderXO].
    match goal with |- context [GetData ?a ?b ?c ?d] => change (GetData a b c d) with (rows_of I_TraderXO p kl) end.
    rewrite TraderXO_T. cbn [bind]. rewrite (traderxo_T g X). reflexivity. }
  split; [apply tab_length|]. intros above below i Hi.
  assert (A : forall i, (i < length kl)%nat -> (above i <-> (xSlow (g i) <~ xFast (g i)) = true)).
  { intros j Hj. unfold above. rewrite tab_nth_error by exact Hj. split; [intros (r & E & H); injection E as <-; exact H|intros H; eexists; split; [reflexivity|exact H]]. }
  assert (B : forall i, (i < length kl)%nat -> (below i <-> (xFast (g i) <~ xSlow (g i)) = true)).
  { intros j Hj. unfold below. rewrite tab_nth_error by exact Hj. split; [intros (r & E & H); injection E as <-; exact H|intros H; eexists; split; [reflexivity|exact H]]. }
  assert (Ai : above i -> (i < length kl)%nat) by (intros (r & E & _); apply tab_some in E; apply E).
  assert (Bi : below i -> (i < length kl)%nat) by (intros (r & E & _); apply tab_some in E; apply E).
  set (b := fun i => xSlow (g i) <~ xFast (g i)) in *. set (l := fun i => xFast (g i) <~ xSlow (g i)) in *.
  split; split.
  - intros E. apply tab_some in E as [Li E]. symmetry in E. apply (xo_buy g) in E as (_ & E1 & E2).
    split; [apply A; [exact Li|exact E1]|]. intros j Hj Haj. apply A in Haj; [|lia].
    destruct (proj1 (opened_false b l i) E2 j Hj Haj) as (k & Hk & Hl). exists k. split; [|apply B; [lia|exact Hl]].
    destruct (Nat.eq_dec k j) as [->|]; [|lia]. unfold l in Hl. rewrite (X _ Haj) in Hl. discriminate.
  - intros [H1 H2]. pose proof (Ai H1) as Li. apply A in H1; [|exact Li]. rewrite tab_nth_error by exact Li. f_equal.
    assert (Eo : opened b l i = false).
    { apply opened_false. intros j Hj Hb. destruct (H2 j Hj) as (k & Hk & Hl); [apply A; [lia|exact Hb]|].
      exists k. split; [lia|]. apply B in Hl; [exact Hl|lia]. }
    destruct i as [|i]; [lia|]. change (decide (b (S i) && negb (opened b l (S i))) (l (S i) && negb (opened l b (S i))) = Buy).
    rewrite Eo. assert (Hb : b (S i) = true) by exact H1. rewrite Hb. reflexivity.
  - intros E. apply tab_some in E as [Li E]. symmetry in E. apply (xo_sell g) in E as (_ & E1 & E2).
    split; [apply B; [exact Li|exact E1]|]. intros j Hj Haj. apply B in Haj; [|lia].
    destruct (proj1 (opened_false l b i) E2 j Hj Haj) as (k & Hk & Hl). exists k. split; [|apply A; [lia|exact Hl]].
    destruct (Nat.eq_dec k j) as [->|]; [|lia]. unfold b in Hl. rewrite (X' _ Haj) in Hl. discriminate.
  - intros [H1 H2]. pose proof (Bi H1) as Li. apply B in H1; [|exact Li]. rewrite tab_nth_error by exact Li. f_equal.
    assert (Eo : opened l b i = false).
    { apply opened_false. intros j Hj Hb. destruct (H2 j Hj) as (k & Hk & Hl); [apply B; [lia|exact Hb]|].
      exists k. split; [lia|]. apply A in Hl; [exact Hl|lia]. }
    destruct i as [|i]; [lia|]. change (decide (b (S i) && negb (opened b l (S i))) (l (S i) && negb (opened l b (S i))) = Sell).
    assert (Hb : b (S i) = false) by exact (X' _ H1). rewrite Hb, Eo. assert (Hl : l (S i) = true) by exact H1. rewrite Hl. reflexivity.
Qed.
Print Assumptions C64_TraderXO.

(** ** C49 *)
(** Bar i ends a run of exactly nine bars with property q that started at bar 4 or later. *)
Definition nine (q : nat -> Prop) (i : nat) : Prop :=
  (12 <= i)%nat /\ (forall k, (i < k + 9)%nat -> (k <= i)%nat -> q k) /\ (i = 12%nat \/ ~ q (i - 9)%nat).
(** The low of this bar or of the previous one is not above the two lows before them ([higher] mirrors it). *)
Definition lower {N : Num} (kl : list Candle) (i : nat) : Prop :=
  exists c c1 c2 c3, nth_error kl i = Some c /\ nth_error kl (i - 1) = Some c1 /\ nth_error kl (i - 2) = Some c2 /\ nth_error kl (i - 3) = Some c3 /\
  ((cLow c <=~ cLow c3 = true /\ cLow c <=~ cLow c2 = true) \/ (cLow c1 <~ cLow c3 = true /\ cLow c1 <=~ cLow c2 = true)).
Definition higher {N : Num} (kl : list Candle) (i : nat) : Prop :=
  exists c c1 c2 c3, nth_error kl i = Some c /\ nth_error kl (i - 1) = Some c1 /\ nth_error kl (i - 2) = Some c2 /\ nth_error kl (i - 3) = Some c3 /\
  ((cHigh c >=~ cHigh c3 = true /\ cHigh c >=~ cHigh c2 = true) \/ (cHigh c1 >=~ cHigh c3 = true /\ cHigh c1 >=~ cHigh c2 = true)).
(** The close is (not) below the close four bars earlier. *)
Definition falling {N : Num} (kl : list Candle) (b : bool) (i : nat) : Prop :=
  exists c c', nth_error kl i = Some c /\ nth_error kl (i - 4) = Some c' /\ cClose c <~ cClose c' = b.

Theorem C49_Reversal_partial (N : Num) (kl : list Candle) :
  exists rows, rows_of I_Reversal tt kl = Ok rows /\ length rows = length kl /\
  forall i r, nth_error rows i = Some r ->
    (rVal r = Buy <-> nine (falling kl true) i /\ lower kl i) /\
    (rVal r = Sell <-> nine (falling kl false) i /\ higher kl i).
Proof.
  rewrite Reversal_T. eexists. split; [reflexivity|]. split; [apply tab_length|].
  intros i r Er. apply tab_some in Er as [Li ->]. cbn [rVal].
  set (con := fun i => cClose (cn kl i) <~ cClose (cn kl (i - 4))).
  assert (G : forall j, (j < length kl)%nat -> nth_error kl j = Some (cn kl j)).
  { intros j Hj. destruct (nth_error kl j) eqn:Ej; [apply cn_some in Ej; now rewrite Ej|apply nth_error_None in Ej; lia]. }
  assert (Fa : forall b j, (j < length kl)%nat -> (falling kl b j <-> con j = b)).
  { intros b j Hj. split.
    - intros (c & c' & E1 & E2 & E3). apply cn_some in E1 as <-. apply cn_some in E2 as <-. exact E3.
    - intros E3. exists (cn kl j), (cn kl (j - 4)). rewrite !G by lia. auto. }
  assert (R9 : run con i = 9 <-> nine (falling kl true) i).
  { change 9 with (Z.of_nat 9). rewrite (run_spec con (n := 9) i) by lia. unfold nine. split; intros (H1 & H2 & H3).
    - split; [lia|]. split; [intros k K1 K2; apply Fa; [lia|now apply H2]|]. destruct H3 as [H3|H3]; [left; lia|right].
      rewrite Fa by lia. congruence.
    - split; [lia|]. split; [intros k K1 K2; apply Fa; [lia|now apply H2]|]. destruct H3 as [H3|H3]; [left; lia|right].
      rewrite Fa in H3 by lia. now apply not_true_is_false. }
  assert (R9' : run (fun i => negb (con i)) i = 9 <-> nine (falling kl false) i).
  { change 9 with (Z.of_nat 9). rewrite (run_spec (fun i => negb (con i)) (n := 9) i) by lia. unfold nine. split; intros (H1 & H2 & H3).
    - split; [lia|]. split; [intros k K1 K2; apply Fa; [lia|]; apply negb_true_iff; now apply H2|]. destruct H3 as [H3|H3]; [left; lia|right].
      rewrite Fa by lia. apply negb_false_iff in H3. congruence.
    - split; [lia|]. split; [intros k K1 K2; apply negb_true_iff; apply Fa; [lia|now apply H2]|]. destruct H3 as [H3|H3]; [left; lia|right].
      rewrite Fa in H3 by lia. apply negb_false_iff. destruct (con (i - 9)%nat); congruence. }
  assert (Lo : rev_pbs (cLow (cn kl i)) (cLow (cn kl (i - 1))) (cLow (cn kl (i - 2))) (cLow (cn kl (i - 3))) = true <-> lower kl i).
  { unfold rev_pbs, lower. rewrite orb_true_iff, !andb_true_iff. split.
    - intros H. exists (cn kl i), (cn kl (i - 1)), (cn kl (i - 2)), (cn kl (i - 3)). rewrite !G by lia. auto.
    - intros (c & c1 & c2 & c3 & E0 & E1 & E2 & E3 & H). apply cn_some in E0 as <-. apply cn_some in E1 as <-. apply cn_some in E2 as <-. apply cn_some in E3 as <-. exact H. }
  assert (Hi : rev_pss (cHigh (cn kl i)) (cHigh (cn kl (i - 1))) (cHigh (cn kl (i - 2))) (cHigh (cn kl (i - 3))) = true <-> higher kl i).
  { unfold rev_pss, higher. rewrite orb_true_iff, !andb_true_iff. split.
    - intros H. exists (cn kl i), (cn kl (i - 1)), (cn kl (i - 2)), (cn kl (i - 3)). rewrite !G by lia. auto.
    - intros (c & c1 & c2 & c3 & E0 & E1 & E2 & E3 & H). apply cn_some in E0 as <-. apply cn_some in E1 as <-. apply cn_some in E2 as <-. apply cn_some in E3 as <-. exact H. }
  rewrite <- R9, <- R9', <- Lo, <- Hi. clear R9 R9' Lo Hi. unfold rev_side. fold con. change (fun i => negb (cClose (cn kl i) <~ cClose (cn kl (i - 4)))) with (fun i => negb (con i)).
  destruct (Nat.ltb_spec i 4).
  { assert (Z0 : forall d, run d i = 0) by (intros d; destruct i as [|[|[|[|]]]]; try lia; reflexivity). rewrite !Z0.
    split; split; try discriminate; intros [? _]; discriminate. }
  assert (Ex : run con i = 9 -> run (fun i => negb (con i)) i = 0).
  { destruct i as [|i]; [lia|]. cbn [run]. destruct (Nat.ltb_spec (S i) 4); [lia|]. destruct (con (S i)); cbn [negb]; [reflexivity|lia]. }
  destruct (Z.eqb_spec (run con i) 9) as [E9|E9].
  - rewrite (Ex E9). cbn [andb Z.eqb]. destruct (rev_pbs _ _ _ _); intuition (first [congruence|discriminate]).
  - cbn [andb]. destruct (Z.eqb_spec (run (fun i => negb (con i)) i) 9) as [E9'|E9'].
    + cbn [andb]. destruct (rev_pss _ _ _ _); intuition (first [congruence|discriminate]).
    + cbn [andb]. split; split; try discriminate; tauto.
Qed.
Print Assumptions C49_Reversal_partial.
(** Buy and Sell exclude each other, because a row holds one Side and both runs cannot end on one bar. *)
Theorem C49_exclusive (N : Num) (kl : list Candle) (i : nat) : nine (falling kl true) i -> nine (falling kl false) i -> False.
Proof.
  intros (_ & H1 & _) (_ & H2 & _). destruct (H1 i) as (c & c' & E1 & E2 & E3); [lia|lia|].
  destruct (H2 i) as (d & d' & F1 & F2 & F3); [lia|lia|]. congruence.
Qed.
Print Assumptions C49_exclusive.
(** Refuted as worded: on thirteen equal closes no close is above the close four bars earlier, yet the last bar reports Sell. *)
Definition equal13 : list (Candle (N := EX)) := repeat (kd 10 11 9 10 1 60) 13.
Theorem C49_refuted :
  (forall i c c', nth_error equal13 i = Some c -> nth_error equal13 (i - 4) = Some c' -> cClose c >~ cClose c' = false) /\
  rmap (map (fun r => rVal r)) (rows_of I_Reversal tt equal13) = Ok (repeat Hold 12 ++ [Sell]).
Proof.
  split; [|vm_compute; reflexivity]. intros i c c' E1 E2. apply nth_error_In, repeat_spec in E1. apply nth_error_In, repeat_spec in E2. subst. vm_compute. reflexivity.
Qed.
Print Assumptions C49_refuted.
Example C49_hyp : rmap (map (fun r => rVal r)) (rows_of I_Reversal tt (flat [30; 29; 28; 27; 26; 25; 24; 23; 22; 21; 20; 19; 18; 17])) = Ok (repeat Hold 12 ++ [Buy; Hold]) /\
  rmap (map (fun r => rVal r)) (rows_of I_Reversal tt (flat [10; 11; 12; 13; 9; 15; 16; 17; 18; 19; 20; 21; 22; 23; 24])) = Ok (repeat Hold 13 ++ [Sell; Hold]).
Proof. split; vm_compute; reflexivity. Qed.
