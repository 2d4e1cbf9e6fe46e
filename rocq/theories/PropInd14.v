(** * PropInd14: property C84 (projection oscillator).

    The vocabulary is in SpecInd2.v and SpecTa.v. *)
From Coq Require Import Reals Lra.
From Verif Require Import Base Num Order B64 XReal RSum Rounding FloatLaws Lits CountLaw Containers Ta TaTools TaElem TaAvg SpecTa TaRange TaDev TaReg TaCci TaMore TaNan Sides Klines
  Regression KlineProofs3 IndBase IndTrend IndChannel IndVolume IndOsc IndTools IndSides SpecInd2 IndForms IndForms2 IndForms3 IndFormsSpec IndExact PropInd1 PropInd12.
Set Implicit Arguments.
Open Scope Z_scope.

Local Notation closes := (map (fun c => cClose c)).
Local Notation highs := (map (fun c => cHigh c)).
Local Notation lows := (map (fun c => cLow c)).

(** ** C84 *)
Lemma tab_head A n (f : nat -> A) : tab (S n) f = f 0%nat :: tab n (fun i => f (S i)).
Proof. change (S n) with (1 + n)%nat. rewrite tab_app. reflexivity. Qed.
(** the last [p] bars up to bar [i], when there are so many *)
Definition last_bars (i p : nat) : list nat := seq (S i - p) p.
Lemma window_top (f : nat -> R) n i p : (1 <= p <= i)%nat -> (i < S n)%nat ->
  window (tab n (fun k => f (S k))) (i - 1) p = map f (last_bars i p).
Proof.
  intros Hp Hi. rewrite (@window_full _ _ (i - 1) p 0%R) by (rewrite ?tab_length; lia).
  unfold last_bars. apply nth_ext with (d := 0%R) (d' := f 0%nat); [now rewrite map_length, seq_length, tab_length|].
  intros j Hj. rewrite tab_length in Hj. rewrite tab_nth by exact Hj. rewrite map_nth, seq_nth by exact Hj. rewrite tab_nth by lia. f_equal. lia.
Qed.
Definition val (x : @F XR) : R := match x with Fin r => r | _ => 0%R end.

(** a slice whose first value alone is NaN *)
Lemma Max_lead (p n : nat) (f : nat -> @F XR) (g : nat -> R) : (1 <= p)%nat -> f 0%nat = NaN -> (forall i, (1 <= i < n)%nat -> f i = Fin (g i)) ->
  exists m : nat -> @F XR, Max (N := XR) (Z.of_nat p) (tab n f) = Ok (tab n m) /\ forall i, (i < n)%nat -> m i = if (i <? p)%nat then NaN else Fin (rmax (map g (last_bars i p))).
Proof.
  intros Hp H0 Hf. destruct n as [|n].
  { exists (fun _ => NaN). split; [|intros; lia]. change (tab 0 f) with (fins []). now rewrite Max_exact by exact Hp. }
  rewrite (tab_head n f), H0. rewrite (@tab_fins (fun i => f (S i)) (fun i => g (S i)) n) by (intros; apply Hf; lia).
  destruct (@Max_nan XR XR_ord p NaN _ _ eq_refl Hp (@Max_exact p (tab n (fun i => g (S i))) Hp)) as (_ & r & E & Lr & Hr).
  rewrite fins_length, tab_length in *. exists (fun i => nth i r (@fzero XR)). split.
  - rewrite E. f_equal. rewrite <- Lr. apply tab_of_list.
  - intros i Hi. rewrite Hr by exact Hi. destruct (Nat.ltb_spec i p); [reflexivity|].
    rewrite tab_nth by lia. now rewrite window_top by lia.
Qed.
Lemma Min_lead (p n : nat) (f : nat -> @F XR) (g : nat -> R) : (1 <= p)%nat -> f 0%nat = NaN -> (forall i, (1 <= i < n)%nat -> f i = Fin (g i)) ->
  exists m : nat -> @F XR, Min (N := XR) (Z.of_nat p) (tab n f) = Ok (tab n m) /\ forall i, (p <= i < n)%nat -> m i = Fin (rmin (map g (last_bars i p))).
Proof.
  intros Hp H0 Hf. destruct n as [|n].
  { exists (fun _ => NaN). split; [|intros; lia]. change (tab 0 f) with (fins []). now rewrite Min_exact by exact Hp. }
  rewrite (tab_head n f), H0. rewrite (@tab_fins (fun i => f (S i)) (fun i => g (S i)) n) by (intros; apply Hf; lia).
  destruct (@Min_nan XR XR_ord p NaN _ _ eq_refl Hp (@Min_exact p (tab n (fun i => g (S i))) Hp)) as (_ & r & E & Lr & Hr).
  rewrite fins_length, tab_length in *. exists (fun i => nth i r (@fzero XR)). split.
  - rewrite E. f_equal. rewrite <- Lr. apply tab_of_list.
  - intros i Hi. rewrite Hr by lia. destruct i as [|i]; [lia|].
    rewrite tab_nth by lia. rewrite <- (@window_top g n (S i) p) by lia. now rewrite Nat.sub_succ, Nat.sub_0_r.
Qed.

Section Proj.
Variables (p : nat) (n : nat) (ys : list R).
Hypothesis Hp : (2 <= p)%nat.
Hypothesis Hn : length ys = n.
Let X := map INR (seq 0 n).
Let mh i := fst (mline (N := XR) p (fins X) (fins ys) i).
Let sl i := val (mh i).
Let LX : length X = n. Proof. unfold X. now rewrite map_length, seq_length. Qed.
Let nthX i : (i < n)%nat -> nth i X 0%R = INR i.
Proof. intros Hi. unfold X. change 0%R with (INR 0). rewrite map_nth, seq_nth by exact Hi. reflexivity. Qed.

Lemma slope_first : (1 <= n)%nat -> mh 0 = NaN.
Proof.
  intros H1.
  unfold mh, mline. rewrite msums_exact by (rewrite ?LX; lia).
  assert (W : window (combine X ys) 0 p = [(0, nth 0 ys 0)]%R).
  { unfold X, window. destruct n as [|k]; [lia|]. cbn [seq map]. destruct ys as [|y0 t]; [discriminate|]. cbn [combine firstn]. destruct p as [|[|q]]; [lia|lia|]. reflexivity. }
  rewrite W. destruct (Nat.leb_spec p 0); [lia|]. unfold s4_fin, s4_line, Sx, Sxx, Sy, Sxy. cbn [map fst snd Rsum fold_right].
  xr. cbn [fst]. match goal with |- fdiv (Fin ?a) (Fin ?b) = NaN => replace a with 0%R; [replace b with 0%R|] end.
  - exact xdiv_00.
  - cbn [Z.of_nat Z.add]. ring.
  - cbn [Z.of_nat Z.add]. ring.
Qed.
Lemma slope_next i : (1 <= i < n)%nat -> mh i = Fin (sl i) /\ exists b, least_squares b (sl i) (window (points ys) i p).
Proof.
  intros Hi. destruct (@mline_exact p X ys i) with (j := (i - 1)%nat) (k := i) as (m & b & E & LS); try (rewrite ?LX; lia).
  - rewrite !nthX by lia. apply not_INR. lia.
  - unfold sl, mh. rewrite E. cbn [fst val]. split; [reflexivity|]. exists b. unfold points. rewrite Hn. exact LS.
Qed.
End Proj.

Section P.
Open Scope R_scope.
Variables (p : nat) (s : Z) (kl : list (Candle (N := XR))) (hs ls cs : list R).
Hypothesis Hp : (2 <= p)%nat.
Hypothesis Hk : (len kl <= 2 ^ 53)%Z.
Hypothesis Hh : highs kl = fins hs.
Hypothesis Hl : lows kl = fins ls.
Hypothesis Hc : closes kl = fins cs.

(** In exact arithmetic: fit a line to the last p highs (lows) of every bar, numbered from the first candle, and add its slope times the
    bar's own number to the high (low). The oscillator places the close between the lowest and the highest of the last p values so obtained,
    in percent; it is 0 while fewer than p bars precede (the first bar has no line) and when the two coincide. Spo is its moving average. *)
Theorem C84_exact : exists (rows : list (row (ProjV (N := XR)))) (up down : nat -> R),
  rows_of I_Projection (mkProjP (Z.of_nat p) s) kl = Ok rows /\ length rows = length kl /\
  (forall i, (1 <= i < length kl)%nat ->
     (exists b, least_squares b (up i) (window (points hs) i p)) /\ (exists b, least_squares b (down i) (window (points ls) i p))) /\
  (forall i r, nth_error rows i = Some r ->
     let top := rmax (map (fun j => nth j hs 0 + up j * INR j) (last_bars i p)) in
     let bottom := rmin (map (fun j => nth j ls 0 + down j * INR j) (last_bars i p)) in
     pjPo (rVal r) = Fin (if (i <? p)%nat then 0 else if Reqb top bottom then 0 else 100 * (nth i cs 0 - bottom) / (top - bottom))) /\
  ema_of s (column (fun v => pjPo v) rows) (column (fun v => pjSpo v) rows).
Proof.
  assert (L : forall (f : Candle (N := XR) -> @F XR) xs, map f kl = fins xs -> length xs = length kl)
    by (intros f xs Q; rewrite <- (fins_length xs), <- Q; now rewrite map_length).
  pose proof (L _ _ Hh) as Lh. pose proof (L _ _ Hl) as Ll. pose proof (L _ _ Hc) as Lc. clear L.
  pose proof Hh as Hh'. pose proof Hl as Hl'. pose proof Hc as Hc'. rewrite cmap in Hh', Hl', Hc'.
  set (n := length kl) in *. set (X := map INR (seq 0 n)).
  assert (EX1 : tab n (fun i => ofZ 0 +~ ofZ 1 *~ ofZ (Z.of_nat i)) = fins X).
  { unfold X. change (map INR (seq 0 n)) with (tab n INR). apply tab_fins. intros j Hj. xr. f_equal. rewrite <- INR_IZR_INZ. ring. }
  assert (Hlen : forall f : nat -> @F XR, len (tab n f) = Z.of_nat n) by (intros; unfold len; now rewrite tab_length).
  set (mu := fun i => fst (mline (N := XR) p (fins X) (fins hs) i)). set (md := fun i => fst (mline (N := XR) p (fins X) (fins ls) i)).
  set (xf := fun i : nat => (ofZ 0 +~ ofZ 1 *~ ofZ (Z.of_nat i) : @F XR)).
  fold xf in EX1.
  assert (Ex : forall i, xf i = Fin (INR i)) by (intros i; unfold xf; xr; f_equal; rewrite <- INR_IZR_INZ; ring).
  assert (Hhi : forall i, (i < n)%nat -> cHigh (cn kl i) = Fin (nth i hs 0)).
  { intros i Hi. rewrite <- (tab_nth (fun i => cHigh (cn kl i)) (@fzero XR) Hi), Hh'. now rewrite fins_nth0. }
  assert (Hlo : forall i, (i < n)%nat -> cLow (cn kl i) = Fin (nth i ls 0)).
  { intros i Hi. rewrite <- (tab_nth (fun i => cLow (cn kl i)) (@fzero XR) Hi), Hl'. now rewrite fins_nth0. }
  assert (Hcl : forall i, (i < n)%nat -> cClose (cn kl i) = Fin (nth i cs 0)).
  { intros i Hi. rewrite <- (tab_nth (fun i => cClose (cn kl i)) (@fzero XR) Hi), Hc'. now rewrite fins_nth0. }
  assert (SU : forall i, (1 <= i < n)%nat -> mu i = Fin (val (mu i)) /\ exists b, least_squares b (val (mu i)) (window (points hs) i p))
    by (intros i Hi; exact (@slope_next p n hs Hp Lh i Hi)).
  assert (SD : forall i, (1 <= i < n)%nat -> md i = Fin (val (md i)) /\ exists b, least_squares b (val (md i)) (window (points ls) i p))
    by (intros i Hi; exact (@slope_next p n ls Hp Ll i Hi)).
  set (vh := fun i : nat => if (i =? 0)%nat then (NaN : @F XR) else cHigh (cn kl i) +~ mu i *~ xf i).
  set (vl := fun i : nat => if (i =? 0)%nat then (NaN : @F XR) else cLow (cn kl i) +~ md i *~ xf i).
  destruct (@Max_lead p n vh (fun j => nth j hs 0 + val (mu j) * INR j)) as (pu & Epu & Hpu); [lia|reflexivity| |].
  { intros i Hi. unfold vh. destruct (Nat.eqb_spec i 0); [lia|]. rewrite Hhi by lia. destruct (SU i Hi) as [-> _]. rewrite Ex. now xr. }
  destruct (@Min_lead p n vl (fun j => nth j ls 0 + val (md j) * INR j)) as (pl & Epl & Hpl); [lia|reflexivity| |].
  { intros i Hi. unfold vl. destruct (Nat.eqb_spec i 0); [lia|]. rewrite Hlo by lia. destruct (SD i Hi) as [-> _]. rewrite Ex. now xr. }
  assert (Evh : tab n (fun i => cHigh (cn kl i) +~ mu i *~ xf i) = tab n vh).
  { apply tab_ext. intros i Hi. unfold vh. destruct (Nat.eqb_spec i 0) as [->|]; [|reflexivity]. assert (M0 : mu 0%nat = NaN) by (apply (@slope_first p n hs Hp Lh); lia). rewrite M0. rewrite Hhi by lia. reflexivity. }
  assert (Evl : tab n (fun i => cLow (cn kl i) +~ md i *~ xf i) = tab n vl).
  { apply tab_ext. intros i Hi. unfold vl. destruct (Nat.eqb_spec i 0) as [->|]; [|reflexivity]. assert (M0 : md 0%nat = NaN) by (apply (@slope_first p n ls Hp Ll); lia). rewrite M0. rewrite Hlo by lia. reflexivity. }
  set (poF := fun i => div_clean ((cClose (cn kl i) +~ pl i *~ ofZ (-1)) *~ ofZ 100) (pu i +~ pl i *~ ofZ (-1)) : @F XR).
  assert (Er : rows_of (N := XR) I_Projection (mkProjP (Z.of_nat p) s) kl = Ok (tab n (fun i => mkRow (tm kl i) (mkProjV (poF i) (emaF s poF i))))).
  { unfold rows_of, GetData, I_Projection. cbn [len length Z.of_nat Z.eqb Calculation Val Param]. unfold proj_calc. rewrite OHLC_T. cbn [bind oClose oHigh oLow OH pjPeriod pjSmooth].
    fold n. rewrite Hlen. rewrite (@GenerateNumbers_tab XR n XR_count Hk). cbn [bind]. fold xf. 
    rewrite MovingLeastSquare_gen by (rewrite !tab_length; lia). cbn [bind]. rewrite MovingLeastSquare_gen by (rewrite !tab_length; lia). cbn [bind].
    rewrite tab_length. rewrite EX1, Hh', Hl'. fold mu md. rewrite <- EX1, <- Hh', <- Hl'.
    rewrite Multiply_T. cbn [bind]. rewrite Add_T. cbn [bind]. rewrite Multiply_T. cbn [bind]. rewrite Add_T. cbn [bind].
    rewrite Evh, Evl. rewrite Epu. cbn [bind]. rewrite Epl. cbn [bind]. rewrite Subtract_T. cbn [bind]. rewrite MultiplyBy_T. cbn [bind]. rewrite Subtract_T. cbn [bind].
    rewrite Divide_T. cbn [bind]. fold poF. rewrite Ema_T. cbn [bind]. rewrite Hlen.
    unfold n at 1. rewrite (@append_rows_T _ _ _ _ _ _ (fun i => mkProjV (poF i) (emaF s poF i)) _ eq_refl).
    - reflexivity.
    - intros. now apply time_at_T.
    - T_get. }
  exists (tab n (fun i => mkRow (tm kl i) (mkProjV (poF i) (emaF s poF i)))), (fun i => val (mu i)), (fun i => val (md i)).
  split; [exact Er|]. split; [apply tab_length|]. split; [intros i Hi; split; [apply (SU i Hi)|apply (SD i Hi)]|]. split.
  - intros i r Hi top bottom. apply tab_some in Hi as [Hi ->]. cbn [rVal pjPo]. unfold poF. rewrite Hpu by exact Hi.
    destruct (Nat.ltb_spec i p) as [C|C].
    { match goal with |- div_clean ?a ?b = _ => change b with (@NaN) end. match goal with |- div_clean ?a _ = _ => destruct a end; reflexivity. }
    rewrite Hpl by lia. rewrite Hcl by exact Hi. fold top bottom. xr. rewrite div_clean_exact.
    f_equal. destruct (Reqb_spec top bottom) as [Q|Q].
    + destruct (Reqb_spec (top + bottom * -1) 0) as [|Q']; [reflexivity|exfalso; lra].
    + destruct (Reqb_spec (top + bottom * -1) 0) as [Q'|Q']; [exfalso; lra|]. f_equal; ring || (unfold Rdiv; f_equal; [ring|f_equal; ring]).
  - rewrite !column_T. cbn [pjPo pjSpo]. apply ema_of_T.
Qed.
End P.
Print Assumptions C84_exact.

(** One would expect a percentage: the close lies between the projected extremes. It does not, because the slope is multiplied by the number
    of the bar instead of its distance: the value leaves [0, 100] on both sides
    (the candles' highs and lows are one above and one below the close). *)
Theorem C84_not_a_percentage :
  (let outside prices := rmap (map (fun r => (pjPo (rVal r) <~ fz 0, fz 100 <~ pjPo (rVal r)))) (rows_of (N := EX) I_Projection (mkProjP 3 2) (flat prices)) in
   outside [5; 7; 6; 9; 12; 10] = Ok [(false, false); (false, false); (false, false); (false, false); (false, false); (true, false)] /\
   outside [25; 23; 24; 21; 18; 20] = Ok [(false, false); (false, false); (false, false); (false, false); (false, false); (false, true)]).
Proof. split; vm_compute; reflexivity. Qed.
Print Assumptions C84_not_a_percentage.

(** Beside C84_exact, period 2, closes 5, 7, 5, 6, highs one above and lows one below: the slopes of bars 1 to 3 are 2, -2 and 1, so the highs are
    projected to 10, 2 and 10 and the lows to 8, 0 and 8; the oscillator is 0, 0, 50 and 60, and its average over 3 is 0, 0, 25 and 42.5. *)
Example C84_hyp :
  rmap (map (fun r => (pjPo (rVal r) ==~ fz 0, pjPo (rVal r) ==~ fz 50, pjPo (rVal r) ==~ fz 60, pjSpo (rVal r) ==~ fz 25, pjSpo (rVal r) *~ fz 2 ==~ fz 85)))
    (rows_of (N := EX) I_Projection (mkProjP 2 3) (flat [5; 7; 5; 6])) =
  Ok [(true, false, false, false, false); (true, false, false, false, false); (false, true, false, true, false); (false, false, true, false, true)].
Proof. vm_compute. reflexivity. Qed.
