(** * PropSmc6: what later candles change in the rows SmartMoneyConcepts has drawn (C112). *)
From Coq Require Import ZArith List Bool Lia.
From Verif Require Import PropInd1 Base Num B64 XReal Order SpecNum Ta TaCausal Sides Klines KlineProofs3 IndBase Lits Smc SpecSmc PropSmc PropSmc3 PropSmc4.
Import ListNotations.
Set Implicit Arguments.
Unset Strict Implicit.
Open Scope Z_scope.

(** ** Specification *)
Section Spec.
Context {N : Num}.
(** candle [i] may draw level [y] in field [f] of row [j]: its close crosses [y] upwards (downwards), or, for equal highs and lows,
    it confirms a pivot that is not before candle [j] *)
Definition drawn_by (p : SmcP) (closes : list F) (i j : nat) (f : field) (y : F) : Prop :=
  match f with
  | fHighBOSShort | fHighCHoCHShort | fHighBOSLong | fHighCHoCHLong =>
      (nth (i - 1) closes fzero <~ y) = true /\ (y <~ nth i closes fzero) = true
  | fLowBOSShort | fLowChoCHShort | fLowBOSLong | fLowChoCHLong =>
      (y <~ nth (i - 1) closes fzero) = true /\ (nth i closes fzero <~ y) = true
  | fEQH | fEQL => EqEnable p = true /\ Z.of_nat j <= Z.of_nat i - BarsConfirmation p
  end.
End Spec.

(** ** More candles: what was computed is computed again *)
Section Ext.
Context {N : Num}.
Lemma get_x A (xs ys : list A) i x : get xs i = Ok x -> get (xs ++ ys) i = Ok x.
Proof.
  unfold get. destruct (i <? 0); [discriminate|]. destruct (nth_error xs (Z.to_nat i)) eqn:E; [|discriminate]. intros H. injection H as <-.
  rewrite nth_error_app1 by (apply nth_error_Some; congruence). now rewrite E.
Qed.
Lemma slice_x A (xs ys : list A) i j r : slice xs i j = Ok r -> slice (xs ++ ys) i j = Ok r.
Proof.
  unfold slice, len. destruct (Z.leb_spec 0 i); [|discriminate]. destruct (Z.leb_spec i j); [|discriminate]. destruct (Z.leb_spec j (Z.of_nat (length xs))); [|discriminate].
  cbn [andb]. intros H2. injection H2 as <-. rewrite app_length. destruct (Z.leb_spec j (Z.of_nat (length xs + length ys))); [|lia]. cbn [andb].
  rewrite firstn_app. replace (Z.to_nat j - length xs)%nat with 0%nat by lia. cbn [firstn]. now rewrite app_nil_r.
Qed.
Lemma upd_x A (xs ys : list A) k v : (k < length xs)%nat -> upd (xs ++ ys) k v = upd xs k v ++ ys.
Proof. revert k. induction xs as [|x xs IH]; intros k H; cbn in H; [lia|]. destruct k; cbn; [reflexivity|]. now rewrite IH by lia. Qed.
Lemma set_x A (xs ys : list A) i v r : set xs i v = Ok r -> set (xs ++ ys) i v = Ok (r ++ ys).
Proof.
  unfold set, len. destruct (Z.leb_spec 0 i); [|discriminate]. destruct (Z.ltb_spec i (Z.of_nat (length xs))); [|discriminate]. cbn [andb]. intros E. injection E as <-.
  rewrite app_length. destruct (Z.ltb_spec i (Z.of_nat (length xs + length ys))); [|lia]. cbn [andb]. now rewrite upd_x by lia.
Qed.
Lemma time_in_x ts us i t : time_in ts i = Ok t -> time_in (ts ++ us) i = Ok t.
Proof. unfold time_in. intros E. apply bind_ok in E as (x & E1 & E). now rewrite (get_x us E1). Qed.
Lemma loop_x S T (R : S -> T) (f : Z -> S -> res S) (g : Z -> T -> res T) n : forall lo, (forall i s s', lo <= i < lo + Z.of_nat n -> f i s = Ok s' -> g i (R s) = Ok (R s')) ->
  forall s r, loop n lo f s = Ok r -> loop n lo g (R s) = Ok (R r).
Proof.
  induction n as [|n IH]; intros lo H s r E; cbn [loop] in E |- *; [now injection E as <-|]. apply bind_ok in E as (s' & E1 & E). rewrite (H lo s s') by (lia || exact E1). cbn [bind].
  apply IH; [|exact E]. intros. apply H; [lia|assumption].
Qed.
Lemma draw_x f y a b d d2 r : draw f y a b d = Ok r -> draw f y a b (d ++ d2) = Ok (r ++ d2).
Proof.
  unfold draw, for_. apply (@loop_x _ _ (fun d => d ++ d2)). intros i s s' _ E. apply bind_ok in E as (w & E1 & E). rewrite (get_x d2 E1). cbn [bind]. now apply set_x.
Qed.
Definition oapp (o : @OHLC N) o2 h2 l2 c2 v2 b2 t2 : OHLC :=
  mkOHLC (oOpen o ++ o2) (oHigh o ++ h2) (oLow o ++ l2) (oClose o ++ c2) (oVolume o ++ v2) (oBull o ++ b2) (oTime o ++ t2).
Definition eapp (d : list (row SmcVal)) (e : @Smc N) : Smc :=
  mkSmc (sData e ++ d) (sBullish e) (sBearish e) (sOs1 e) (sOs2 e) (sIdxBullish e) (sIdxBearish e) (sStrongHigh e) (sWeakHigh e) (sStrongLow e) (sWeakLow e).
Variables (p : SmcP) (oh : @OHLC N) (atr : list (@F N)) (o2 h2 l2 c2 v2 a2 : list (@F N)) (b2 : list bool) (t2 : list Z) (d2 : list (row (@SmcVal N))).
Local Notation oh' := (oapp oh o2 h2 l2 c2 v2 b2 t2).
Lemma obCoord_x useMax i loc hs ls at_ prev lst r : obCoord oh useMax i loc hs ls at_ prev lst = Ok r -> obCoord oh' useMax i loc hs ls at_ prev lst = Ok r.
Proof.
  intros E. unfold obCoord in *. cbn [oTime oOpen oClose oapp]. apply bind_ok in E as ([idx pr] & E1 & E). rewrite E1. cbn [bind].
  apply bind_ok in E as (t & E2 & E). rewrite (time_in_x t2 E2). cbn [bind]. apply bind_ok in E as (o & E3 & E). rewrite (get_x o2 E3). cbn [bind].
  apply bind_ok in E as (c & E4 & E). rewrite (get_x c2 E4). cbn [bind]. exact E.
Qed.
Lemma brk_x fires choch useMax fb fc i hs ls at_ pv d x lst q d1 x1 lst1 : brk oh fires choch useMax fb fc i hs ls at_ pv (d, x, lst) = Ok (q, (d1, x1, lst1)) ->
  brk oh' fires choch useMax fb fc i hs ls at_ pv (d ++ d2, x, lst) = Ok (q, (d1 ++ d2, x1, lst1)).
Proof.
  unfold brk. destruct fires; [|intros E; injection E as <- <- <- <-; reflexivity]. intros E. apply bind_ok in E as (d' & E1 & E). rewrite (draw_x d2 E1). cbn [bind].
  apply bind_ok in E as ([x' l'] & E2 & E). rewrite (obCoord_x E2). cbn [bind]. injection E as <- <- <- <-. reflexivity.
Qed.
Lemma eq_step_x ct f y i a prev x d q : eq_step ct f y i a p (prev, x, d) = Ok q -> eq_step ct f y i a p (prev, x, d ++ d2) = Ok (fst q, snd q ++ d2).
Proof.
  unfold eq_step. destruct (negb _); [|intros E; injection E as <-; reflexivity]. cbv zeta. destruct (ct _ _ _).
  - intros E. apply bind_ok in E as (d' & E1 & E). rewrite (draw_x d2 E1). cbn [bind]. injection E as <-. reflexivity.
  - cbn [bind]. intros E. injection E as <-. reflexivity.
Qed.
Lemma bar_x i v e v1 e1 : smc_bar p oh atr i v e = Ok (v1, e1) -> smc_bar p oh' (atr ++ a2) i v (eapp d2 e) = Ok (v1, eapp d2 e1).
Proof.
  intros E. unfold smc_bar in *. cbn [oTime oOpen oClose oHigh oLow oapp sData sBullish sBearish sOs1 sOs2 sIdxBullish sIdxBearish sStrongHigh sWeakHigh sStrongLow sWeakLow eapp].
  apply bind_ok in E as (cl & E1 & E). rewrite (get_x c2 E1). cbn [bind]. clear E1. apply bind_ok in E as (hi & E1 & E). rewrite (get_x h2 E1). cbn [bind]. clear E1.
  apply bind_ok in E as (lo & E1 & E). rewrite (get_x l2 E1). cbn [bind]. clear E1. apply bind_ok in E as (tm & E1 & E). rewrite (get_x t2 E1). cbn [bind]. clear E1.
  apply bind_ok in E as (hs & E1 & E). rewrite (slice_x h2 E1). cbn [bind]. clear E1. apply bind_ok in E as (ls & E1 & E). rewrite (slice_x l2 E1). cbn [bind]. clear E1.
  apply bind_ok in E as ([[tp bt] os1] & E1 & E). rewrite E1. cbn [bind]. clear E1. apply bind_ok in E as ([[it ib] os2] & E1 & E). rewrite E1. cbn [bind]. clear E1.
  cbv zeta in E |- *. destruct (trail fmax _ _ _ _ _) as [up upX]. destruct (trail fmin _ _ _ _ _) as [dn dnX].
  apply bind_ok in E as (cs & E1 & E). rewrite (slice_x c2 E1). cbn [bind]. clear E1. apply bind_ok in E as (at_ & E1 & E). rewrite (slice_x a2 E1). cbn [bind]. clear E1.
  apply bind_ok in E as (x1 & E1 & E). rewrite E1. cbn [bind]. clear E1. apply bind_ok in E as ([q1 [[d1 j1] m1]] & E1 & E). rewrite (brk_x E1). cbn [bind]. clear E1.
  apply bind_ok in E as (x2 & E1 & E). rewrite E1. cbn [bind]. clear E1. apply bind_ok in E as ([q2 [[d3 j2] m2]] & E1 & E). rewrite (brk_x E1). cbn [bind]. clear E1.
  apply bind_ok in E as (x3 & E1 & E). rewrite E1. cbn [bind]. clear E1. apply bind_ok in E as ([q3 [[d4 j3] m3]] & E1 & E). rewrite (brk_x E1). cbn [bind]. clear E1.
  apply bind_ok in E as (x4 & E1 & E). rewrite E1. cbn [bind]. clear E1. apply bind_ok in E as ([q4 [[d5 j4] m4]] & E1 & E). rewrite (brk_x E1). cbn [bind]. clear E1.
  apply bind_ok in E as (bu & E1 & E). rewrite E1. cbn [bind]. clear E1. apply bind_ok in E as (be & E1 & E). rewrite E1. cbn [bind]. clear E1.
  apply bind_ok in E as ([[[[eqT eqTX] eqB] eqBX] d6] & E1 & E).
  assert (Q : (if EqEnable p then tops <- PivotHigh hs (BarsConfirmation p) (BarsConfirmation p);; eq_top <- get tops (len tops - 1);;
       btms <- PivotLow ls (BarsConfirmation p) (BarsConfirmation p);; eq_btm <- get btms (len btms - 1);; a <- get (atr ++ a2) i;;
       '(eqT, eqTX, data) <- eq_step (fun max min band => max <~ (min +~ band)) fEQH eq_top i a p (lEqTop v, lEqTopX v, d5 ++ d2);;
       '(eqB, eqBX, data) <- eq_step (fun max min band => (max -~ band) <~ min) fEQL eq_btm i a p (lEqBtm v, lEqBtmX v, data);; Ok (eqT, eqTX, eqB, eqBX, data)
     else Ok (lEqTop v, lEqTopX v, lEqBtm v, lEqBtmX v, d5 ++ d2)) = Ok (eqT, eqTX, eqB, eqBX, d6 ++ d2)).
  { destruct (EqEnable p); [|injection E1 as <- <- <- <- <-; reflexivity].
    apply bind_ok in E1 as (ts & F1 & E1). rewrite F1. cbn [bind]. apply bind_ok in E1 as (et & F2 & E1). rewrite F2. cbn [bind].
    apply bind_ok in E1 as (bs & F3 & E1). rewrite F3. cbn [bind]. apply bind_ok in E1 as (eb & F4 & E1). rewrite F4. cbn [bind].
    apply bind_ok in E1 as (a & F5 & E1). rewrite (get_x a2 F5). cbn [bind]. apply bind_ok in E1 as ([[g1 g2] g3] & F6 & E1). rewrite (eq_step_x F6). cbn [bind fst snd].
    apply bind_ok in E1 as ([[k1 k2] k3] & F7 & E1). rewrite (eq_step_x F7). cbn [bind fst snd]. injection E1 as <- <- <- <- <-. reflexivity. }
  rewrite Q. cbn [bind]. clear Q E1. apply bind_ok in E as (tu & E1 & E). rewrite (time_in_x t2 E1). cbn [bind]. clear E1. apply bind_ok in E as (td & E1 & E). rewrite (time_in_x t2 E1). cbn [bind]. clear E1.
  apply bind_ok in E as (r & E1 & E). rewrite (get_x d2 E1). cbn [bind]. clear E1. apply bind_ok in E as (d7 & E1 & E). rewrite (set_x d2 E1). cbn [bind]. clear E1.
  injection E as <- <-. reflexivity.
Qed.
Lemma step_x i s s1 : smc_step p oh atr i s = Ok s1 -> smc_step p oh' (atr ++ a2) i (fst s, eapp d2 (snd s)) = Ok (fst s1, eapp d2 (snd s1)).
Proof.
  destruct s as [v e], s1 as [v1 e1]. intros E. unfold smc_step in *. cbn [oTime oOpen oClose oHigh oLow oapp fst snd].
  apply bind_ok in E as (cl & E1 & E). rewrite (get_x c2 E1). cbn [bind]. clear E1. apply bind_ok in E as (hi & E1 & E). rewrite (get_x h2 E1). cbn [bind]. clear E1.
  apply bind_ok in E as (lo & E1 & E). rewrite (get_x l2 E1). cbn [bind]. clear E1. apply bind_ok in E as (tm & E1 & E). rewrite (get_x t2 E1). cbn [bind]. clear E1. cbv zeta in E |- *.
  destruct (i <? SwingLenght p); [injection E as <- <-; reflexivity|]. now apply bar_x.
Qed.
End Ext.

(** ** One more candle: what it may draw *)
Section Draws.
Context {N : Num}.
Lemma loop_keeps2 S (P : S -> Prop) (f : Z -> S -> res S) n : forall lo, (forall i s s', lo <= i < lo + Z.of_nat n -> P s -> f i s = Ok s' -> P s') ->
  forall s r, P s -> loop n lo f s = Ok r -> P r.
Proof.
  induction n as [|n IH]; intros lo Hf s r Hs E; cbn [loop] in E; [now injection E as <-|].
  apply bind_ok in E as (s' & E1 & E). eapply (IH (lo + 1)); [|eapply Hf; [|exact Hs|exact E1]; lia|exact E]. intros. eapply Hf; [|eassumption|eassumption]. lia.
Qed.
(** rows [d1] are rows [d] but for levels of kind [P] *)
Definition redrawn (n : nat) (P : nat -> field -> @F N -> Prop) (d d1 : list (row SmcVal)) : Prop := forall j r, (j < n)%nat -> nth_error d j = Some r ->
  exists r', nth_error d1 j = Some r' /\ rTime r' = rTime r /\ forall g, field_of g (rVal r') = field_of g (rVal r) \/ P j g (field_of g (rVal r')).
Lemma redrawn_refl n (P : nat -> field -> @F N -> Prop) d : redrawn n P d d.
Proof. intros j r _ E. exists r. repeat split; auto. Qed.
Lemma redrawn_trans n (P : nat -> field -> @F N -> Prop) d d1 d2 : redrawn n P d d1 -> redrawn n P d1 d2 -> redrawn n P d d2.
Proof.
  intros A B j r Hj E. destruct (A j r Hj E) as (r1 & E1 & T1 & F1). destruct (B j r1 Hj E1) as (r2 & E2 & T2 & F2). exists r2. split; [exact E2|]. split; [congruence|].
  intros g. destruct (F2 g) as [G|G]; [|now right]. rewrite G. apply F1.
Qed.
Lemma redrawn_weaken n (P Q : nat -> field -> @F N -> Prop) d d1 : (forall j g y, (j < n)%nat -> P j g y -> Q j g y) -> redrawn n P d d1 -> redrawn n Q d d1.
Proof. intros H A j r Hj E. destruct (A j r Hj E) as (r1 & E1 & T1 & F1). exists r1. repeat split; auto. intros g. destruct (F1 g); auto. Qed.
Lemma nth_upd A (l : list A) k v j : nth_error (upd l k v) j = if (j =? k)%nat then (match nth_error l j with Some _ => Some v | None => None end) else nth_error l j.
Proof. revert k j. induction l as [|x l IH]; intros [|k] [|j]; cbn; try reflexivity; [now destruct (_ =? _)%nat|apply IH]. Qed.
Lemma set_nth A (l l' : list A) i v j : set l i v = Ok l' -> nth_error l' j = if (j =? Z.to_nat i)%nat then Some v else nth_error l j.
Proof.
  unfold set, len. destruct (Z.leb_spec 0 i); [|discriminate]. destruct (Z.ltb_spec i (Z.of_nat (length l))); [|discriminate]. cbn [andb]. intros E. injection E as <-.
  rewrite nth_upd. destruct (Nat.eqb_spec j (Z.to_nat i)) as [->|]; [|reflexivity]. destruct (nth_error l (Z.to_nat i)) eqn:G; [reflexivity|]. apply nth_error_None in G. lia.
Qed.
Lemma get_nth A (l : list A) i x : get l i = Ok x -> 0 <= i /\ nth_error l (Z.to_nat i) = Some x.
Proof. unfold get. destruct (Z.ltb_spec i 0); [discriminate|]. destruct (nth_error l (Z.to_nat i)); [|discriminate]. intros E. injection E as <-. now split. Qed.
Lemma field_put g f y (v : @SmcVal N) : field_of g (put f y v) = field_of g v \/ (g = f /\ field_of g (put f y v) = y).
Proof. destruct v, f, g; cbn; auto. Qed.
Lemma draw_redrawn n (P : nat -> field -> @F N -> Prop) f y a b d d1 : (forall j, Z.of_nat j <= b -> P j f y) -> draw f y a b d = Ok d1 -> redrawn n P d d1.
Proof.
  intros HP E. unfold draw, for_ in E. refine (@loop_keeps2 _ (redrawn n P d) _ _ a _ _ _ (@redrawn_refl n P d) E).
  intros i s s' Hi Hs E'. eapply redrawn_trans; [exact Hs|]. apply bind_ok in E' as (r & E1 & E'). apply get_nth in E1 as [I0 E1].
  intros j w _ Ew. rewrite (set_nth _ E'). destruct (Nat.eqb_spec j (Z.to_nat i)) as [->|]; [|exists w; repeat split; auto].
  rewrite E1 in Ew. injection Ew as <-. eexists. split; [reflexivity|]. split; [reflexivity|]. intros g. cbn [rVal]. destruct (field_put g f y (rVal r)) as [G|[-> G]]; [now left|right].
  rewrite G. apply HP. lia.
Qed.
Lemma nth_firstn A (l : list A) k j : (j < k)%nat -> nth_error (firstn k l) j = nth_error l j.
Proof. revert k j. induction l as [|x l IH]; intros [|k] [|j] H; cbn; try reflexivity; try lia. apply IH. lia. Qed.
Lemma over_at cs i cls s : slice cs 0 (Z.of_nat i + 1) = Ok cls -> CrossOver cls s = Ok true -> (nth (i - 1) cs (fzero : @F N) <~ s) = true /\ (s <~ nth i cs fzero) = true.
Proof.
  unfold slice, CrossOver, len. destruct (Z.leb_spec 0 0); [|discriminate]. destruct (Z.leb_spec 0 (Z.of_nat i + 1)); [|discriminate]. destruct (Z.leb_spec (Z.of_nat i + 1) (Z.of_nat (length cs))); [|discriminate].
  cbn [andb Z.to_nat skipn]. intros E. injection E as <-. replace (Z.to_nat (Z.of_nat i + 1)) with (S i) by lia. rewrite firstn_length. replace (Nat.min (S i) (length cs)) with (S i) by lia.
  assert (G : forall k x, get (firstn (S i) cs) k = Ok x -> 0 <= k /\ x = nth (Z.to_nat k) cs fzero).
  { intros k x E. apply get_nth in E as [K E]. split; [exact K|]. assert (L : (Z.to_nat k < S i)%nat). { assert (Z.to_nat k < length (firstn (S i) cs))%nat by (apply nth_error_Some; congruence). rewrite firstn_length in *. lia. }
    rewrite nth_firstn in E by exact L. symmetry. now apply nth_error_nth. }
  intros E. apply bind_ok in E as (a & E1 & E). apply G in E1 as [_ ->]. replace (Z.to_nat (Z.of_nat (S i) - 1)) with i in E by lia. destruct (s <~ nth i cs fzero) eqn:L; [|discriminate].
  apply bind_ok in E as (b & E2 & E). apply G in E2 as [K ->]. replace (Z.to_nat (Z.of_nat (S i) - 2)) with (i - 1)%nat in E by lia. injection E as E. now split.
Qed.
Lemma under_at cs i cls s : slice cs 0 (Z.of_nat i + 1) = Ok cls -> CrossUnder cls s = Ok true -> (s <~ nth (i - 1) cs (fzero : @F N)) = true /\ (nth i cs fzero <~ s) = true.
Proof.
  unfold slice, CrossUnder, len. destruct (Z.leb_spec 0 0); [|discriminate]. destruct (Z.leb_spec 0 (Z.of_nat i + 1)); [|discriminate]. destruct (Z.leb_spec (Z.of_nat i + 1) (Z.of_nat (length cs))); [|discriminate].
  cbn [andb Z.to_nat skipn]. intros E. injection E as <-. replace (Z.to_nat (Z.of_nat i + 1)) with (S i) by lia. rewrite firstn_length. replace (Nat.min (S i) (length cs)) with (S i) by lia.
  assert (G : forall k x, get (firstn (S i) cs) k = Ok x -> 0 <= k /\ x = nth (Z.to_nat k) cs fzero).
  { intros k x E. apply get_nth in E as [K E]. split; [exact K|]. assert (L : (Z.to_nat k < S i)%nat). { assert (Z.to_nat k < length (firstn (S i) cs))%nat by (apply nth_error_Some; congruence). rewrite firstn_length in *. lia. }
    rewrite nth_firstn in E by exact L. symmetry. now apply nth_error_nth. }
  intros E. apply bind_ok in E as (a & E1 & E). apply G in E1 as [_ ->]. replace (Z.to_nat (Z.of_nat (S i) - 1)) with i in E by lia. destruct (nth i cs fzero <~ s) eqn:L; [|discriminate].
  apply bind_ok in E as (b & E2 & E). apply G in E2 as [K ->]. replace (Z.to_nat (Z.of_nat (S i) - 2)) with (i - 1)%nat in E by lia. injection E as E. now split.
Qed.
Lemma brk_redrawn n (P : nat -> field -> @F N -> Prop) oh fires (choch useMax : bool) fb fc i hs ls at_ pv d x lst q d1 x1 lst1 :
  (fires = true -> forall j, P j fb (pvY pv) /\ P j fc (pvY pv)) ->
  brk (N := N) oh fires choch useMax fb fc i hs ls at_ pv (d, x, lst) = Ok (q, (d1, x1, lst1)) -> redrawn n P d d1.
Proof.
  intros HP. unfold brk. destruct fires; [|intros E; injection E as <- <- <- <-; apply redrawn_refl]. intros E. apply bind_ok in E as (d' & E1 & E).
  apply bind_ok in E as ([x' l'] & E2 & E). injection E as <- <- <- <-. eapply draw_redrawn; [|exact E1]. intros j _. destruct (HP eq_refl j). now destruct choch.
Qed.
Lemma eq_redrawn n (P : nat -> field -> @F N -> Prop) ct f y i a p prev x d q : (forall j z, Z.of_nat j <= i - BarsConfirmation p -> P j f z) ->
  eq_step (N := N) ct f y i a p (prev, x, d) = Ok q -> redrawn n P d (snd q).
Proof.
  intros HP. unfold eq_step. destruct (negb _); [|intros E; injection E as <-; apply redrawn_refl]. cbv zeta. destruct (ct _ _ _).
  - intros E. apply bind_ok in E as (d' & E1 & E). injection E as <-. cbn [snd]. eapply draw_redrawn; [|exact E1]. intros. now apply HP.
  - cbn [bind]. intros E. injection E as <-. apply redrawn_refl.
Qed.
Lemma bar_redrawn n p oh atr (i : nat) v e v1 e1 : (n <= i)%nat -> smc_bar (N := N) p oh atr (Z.of_nat i) v e = Ok (v1, e1) ->
  redrawn n (fun j => drawn_by p (oClose oh) i j) (sData e) (sData e1).
Proof.
  intros Hi E. unfold smc_bar in E. do 6 (apply bind_ok in E as (? & _ & E)). apply bind_ok in E as ([[tp bt] os1] & _ & E). apply bind_ok in E as ([[it ib] os2] & _ & E).
  cbv zeta in E. destruct (trail fmax _ _ _ _ _) as [up upX]. destruct (trail fmin _ _ _ _ _) as [dn dnX]. apply bind_ok in E as (cs & C & E). apply bind_ok in E as (at_ & _ & E).
  apply bind_ok in E as (z1 & X1 & E). apply bind_ok in E as ([q1 [[d1 j1] m1]] & E1 & E).
  apply bind_ok in E as (z2 & X2 & E). apply bind_ok in E as ([q2 [[d2 j2] m2]] & E2 & E).
  apply bind_ok in E as (z3 & X3 & E). apply bind_ok in E as ([q3 [[d3 j3] m3]] & E3 & E).
  apply bind_ok in E as (z4 & X4 & E). apply bind_ok in E as ([q4 [[d4 j4] m4]] & E4 & E).
  do 2 (apply bind_ok in E as (? & _ & E)). apply bind_ok in E as ([[[[eqT eqTX] eqB] eqBX] d6] & Eq & E). do 2 (apply bind_ok in E as (? & _ & E)).
  apply bind_ok in E as (r & R & E). apply bind_ok in E as (d7 & D & E). injection E as _ <-. cbn [sData].
  eapply redrawn_trans; [eapply brk_redrawn; [|exact E1]|].
  { intros F j. apply andb_true_iff in F as [F _]. apply andb_true_iff in F as [-> _]. apply (over_at C) in X1. split; exact X1. }
  eapply redrawn_trans; [eapply brk_redrawn; [|exact E2]|].
  { intros F j. apply andb_true_iff in F as [-> _]. apply (over_at C) in X2. split; exact X2. }
  eapply redrawn_trans; [eapply brk_redrawn; [|exact E3]|].
  { intros F j. apply andb_true_iff in F as [F _]. apply andb_true_iff in F as [-> _]. apply (under_at C) in X3. split; exact X3. }
  eapply redrawn_trans; [eapply brk_redrawn; [|exact E4]|].
  { intros F j. apply andb_true_iff in F as [-> _]. apply (under_at C) in X4. split; exact X4. }
  apply redrawn_trans with d6.
  { destruct (EqEnable p) eqn:En; [|injection Eq as _ _ _ _ <-; apply redrawn_refl]. do 5 (apply bind_ok in Eq as (? & _ & Eq)).
    apply bind_ok in Eq as ([[g1 g2] g3] & F6 & Eq). apply bind_ok in Eq as ([[k1 k2] k3] & F7 & Eq). injection Eq as _ _ _ _ <-.
    apply redrawn_trans with g3; [change g3 with (snd (g1, g2, g3)); eapply eq_redrawn; [|exact F6]|change k3 with (snd (k1, k2, k3)); eapply eq_redrawn; [|exact F7]]; intros j z Hj; cbn; auto. }
  intros j w Hj Ew. rewrite (set_nth _ D), Nat2Z.id. destruct (Nat.eqb_spec j i); [lia|]. exists w. repeat split; auto.
Qed.
Lemma step_redrawn n p oh atr (i : nat) s s1 : (n <= i)%nat -> smc_step (N := N) p oh atr (Z.of_nat i) s = Ok s1 ->
  redrawn n (fun j => drawn_by p (oClose oh) i j) (sData (snd s)) (sData (snd s1)).
Proof.
  destruct s as [v e], s1 as [v1 e1]. intros Hi E. unfold smc_step in E. do 4 (apply bind_ok in E as (? & _ & E)). cbv zeta in E. cbn [snd].
  destruct (_ <? SwingLenght p); [injection E as _ <-; apply redrawn_refl|]. eapply bar_redrawn; eassumption.
Qed.
End Draws.

(** ** C112 *)
(** When candles are added, the row of an old candle keeps its time, and each of its ten levels either stays what it was or is one that
    one of the added candles draws: its close crosses that very level (or it confirms an equal high or low).
    No old row changes for another reason. *)
Theorem C112_repaint (N : Num) (p : SmcP) (kl more : list (@Candle N)) (e e' : Smc) :
  (200 < length kl)%nat -> smc_run p kl = Ok e -> smc_run p (kl ++ more) = Ok e' ->
  forall j r r', (j < length kl)%nat -> nth_error (sData e) j = Some r -> nth_error (sData e') j = Some r' ->
    rTime r' = rTime r /\
    forall f, field_of f (rVal r') = field_of f (rVal r) \/
      exists i, (length kl <= i < length (kl ++ more))%nat /\ drawn_by p (map (fun k => cClose k) (kl ++ more)) i j f (field_of f (rVal r')).
Proof.
  intros Hn A B. unfold smc_run in A, B. rewrite GetOHLC_spec in A, B. cbn [bind] in A, B. unfold smc_Calculation in A, B. cbn [oHigh oLow oClose] in A, B.
  apply bind_ok in A as (atr & A1 & A). apply bind_ok in B as (atr' & B1 & B).
  assert (Pf : forall f : @Candle N -> F, prefix (map f kl) (map f (kl ++ more))) by (intros f; exists (map f more); apply map_app).
  assert (Q : prefix atr atr') by exact (@Atr_prefix N _ _ _ _ _ _ (Pf cHigh) (Pf cLow) (Pf cClose) 200 _ _ A1 B1).
  destruct Q as [a2 ->]. clear A1 B1. apply bind_ok in A as (d & D & A). apply bind_ok in B as (d' & D' & B). rewrite make_len in D, D'. injection D as <-. injection D' as <-.
  cbv zeta in A, B. apply bind_ok in A as ([v1 e1] & A & A2). injection A2 as ->. apply bind_ok in B as ([v2 e2] & B & B2). injection B2 as ->.
  unfold for_ in A, B. unfold len in A, B. rewrite !map_length in A, B. rewrite app_length in B.
  replace (Z.to_nat (Z.of_nat (length kl) - 1)) with (length kl - 1)%nat in A by lia.
  replace (Z.to_nat (Z.of_nat (length kl + length more) - 1)) with ((length kl - 1) + length more)%nat in B by lia.
  rewrite loop_app in B. apply bind_ok in B as ([v3 e3] & B1 & B2).
  set (o := mkOHLC (map cOpen kl) (map cHigh kl) (map cLow kl) (map cClose kl) (map cVolume kl) (map cBull kl) (map cTime kl)) in A.
  set (z := mkRow zero_time smc_zero) in A, B1.
  assert (X := @loop_x _ _ (fun s => (fst s, eapp (repeat z (length more)) (snd s))) (smc_step p o atr)
     (smc_step p (oapp o (map cOpen more) (map cHigh more) (map cLow more) (map cClose more) (map cVolume more) (map cBull more) (map cTime more)) (atr ++ a2))
     (length kl - 1) 1 (fun i s s' _ E => step_x _ _ _ _ _ _ _ _ _ E) _ _ A).
  unfold oapp, eapp in X. subst o.
  cbn [fst snd smc_new sBullish sBearish sOs1 sOs2 sIdxBullish sIdxBearish sStrongHigh sWeakHigh sStrongLow sWeakLow sData oOpen oHigh oLow oClose oVolume oBull oTime] in X.
  rewrite <- !map_app, <- repeat_app in X. cbn [smc_new sBullish sBearish sOs1 sOs2 sIdxBullish sIdxBearish sStrongHigh sWeakHigh sStrongLow sWeakLow] in B1.
  rewrite B1 in X. injection X as -> ->. clear A B1.
  set (o' := mkOHLC _ _ _ _ _ _ _) in B2.
  set (P := fun j f y => exists i, (length kl <= i < length (kl ++ more))%nat /\ drawn_by p (oClose o') i j f y).
  assert (G : redrawn (length kl) P (sData e ++ repeat z (length more)) (sData e')).
  { refine (@loop_keeps2 _ (fun s => redrawn (length kl) P (sData e ++ repeat z (length more)) (sData (snd s))) _ _ _ _ _ _ _ B2); [|apply redrawn_refl].
    intros i s s' Hi Hs E. eapply redrawn_trans; [exact Hs|]. replace i with (Z.of_nat (Z.to_nat i)) in E by lia. eapply redrawn_weaken; [|eapply step_redrawn; [|exact E]; lia].
    intros j g y Hj Hd. exists (Z.to_nat i). split; [rewrite app_length; lia|exact Hd]. }
  intros j r r' Hk Ej Ej'. assert (Hj : (j < length (sData e))%nat) by (apply nth_error_Some; congruence).
  destruct (G j r Hk) as (w & Ew & Tw & Fw); [now rewrite nth_error_app1|]. rewrite Ej' in Ew. injection Ew as <-. split; [exact Tw|exact Fw].
Qed.
Print Assumptions C112_repaint.

(** a break of structure that is shown stays shown: as long as no price is negative, a BOS or CHoCH level of an old row may be replaced by
    the level of a later break, but not by zero (of either sign), in float64 and in exact arithmetic *)
Theorem C112_kept (m : Model) (p : SmcP) (kl more : list (@Candle (num m))) (e e' : Smc) :
  (200 < length kl)%nat -> smc_run p kl = Ok e -> smc_run p (kl ++ more) = Ok e' ->
  (forall k, In k (kl ++ more) -> (cClose k <~ fzero) = false) ->
  forall j r r' f, (j < length kl)%nat -> nth_error (sData e) j = Some r -> nth_error (sData e') j = Some r' -> f <> fEQH -> f <> fEQL ->
    (field_of f (rVal r) ==~ fzero) = false -> (field_of f (rVal r') ==~ fzero) = false.
Proof.
  intros Hn A B Hp j r r' f Hj Ej Ej' F1 F2 Hr. destruct (@C112_repaint (num m) p kl more e e' Hn A B j r r' Hj Ej Ej') as [_ G].
  destruct (G f) as [->|(i & Hi & D)]; [exact Hr|].
  assert (K : forall q, (q < length (kl ++ more))%nat -> (nth q (map (fun k => cClose k) (kl ++ more)) fzero <~ fzero) = false).
  { intros q Hq. rewrite (nth_indep _ fzero (cClose (blank (N := num m) 0))) by now rewrite map_length. rewrite map_nth. apply Hp. now apply nth_In. }
  set (y := field_of f (rVal r')) in *. clearbody y. destruct (y ==~ fzero) eqn:Z; [|reflexivity]. exfalso.
  destruct (feq_nn (ord_laws m) _ _ Z) as [Ny N0].
  assert (L : forall q, (q < length (kl ++ more))%nat -> (nth q (map (fun k => cClose k) (kl ++ more)) fzero <~ y) = true -> False).
  { intros q Hq Q. destruct (lt_nn (ord_laws m) _ _ Q) as [Na _]. apply (feq_le (ord_laws m) Ny N0) in Z as [Z _].
    pose proof (ol_ntrans (ord_laws m) Na N0 Ny (K q Hq) Z) as W. congruence. }
  destruct f; cbn [drawn_by] in D; try congruence; destruct D as [D1 D2].
  1-4: apply (L (i - 1)%nat); [lia|exact D1].
  1-4: apply (L i); [lia|exact D2].
Qed.
Print Assumptions C112_kept.

Definition later : list (Candle (N := EX)) :=
  map (fun k => let i := Z.of_nat k in kd (ramp i) (ramp i + 1 + i mod 3) (ramp i - 1) (ramp i) 1 (60 * i)) (seq 213 11).
(** old rows do change: the chart of PropSmc4.v before and after its last eleven candles; the level of 143 appears on rows that had none *)
Theorem C112_rows_change : exists (p : SmcP) (kl more : list (@Candle EX)) (e e' : Smc) j r r',
  (200 < length kl)%nat /\ smc_run p kl = Ok e /\ smc_run p (kl ++ more) = Ok e' /\ (j < length kl)%nat /\
  nth_error (sData e) j = Some r /\ nth_error (sData e') j = Some r' /\ HighBOSLong (rVal r) = fzero /\ HighBOSLong (rVal r') <> fzero.
Proof.
  set (q := fun s : Smc (N := EX) => match nth_error (sData s) 205 with Some r => Some (HighBOSLong (rVal r) ==~ fzero, signbit (HighBOSLong (rVal r))) | None => None end).
  assert (Run : forall kl a, rmap q (smc_run (N := EX) (smc_params 5 3 1) kl) = Ok a -> exists e, smc_run (smc_params 5 3 1) kl = Ok e /\ q e = a).
  { intros kl a. destruct (smc_run _ kl) as [e|]; [|discriminate]. cbn [rmap bind]. intros E. injection E as E. now exists e. }
  destruct (Run (ramps 213) (Some (true, false))) as (e & E & Q); [vm_compute; reflexivity|].
  destruct (Run (ramps 213 ++ later) (Some (false, false))) as (e' & E' & Q'); [vm_compute; reflexivity|].
  unfold q in Q, Q'. destruct (nth_error (sData e) 205) as [r|] eqn:R; [|discriminate Q]. destruct (nth_error (sData e') 205) as [r'|] eqn:R'; [|discriminate Q'].
  exists (smc_params 5 3 1), (ramps 213), later, e, e', 205%nat, r, r'. split; [unfold ramps; rewrite map_length, seq_length; lia|]. split; [exact E|]. split; [exact E'|].
  split; [unfold ramps; rewrite map_length, seq_length; lia|]. split; [exact R|]. split; [exact R'|]. injection Q as Z S. injection Q' as Z' _. split.
  - revert Z S. generalize (HighBOSLong (rVal r)). clear. intros x Z S. destruct x as [[]|[]| |[] ? ?]; try discriminate; reflexivity.
  - intros H. rewrite H in Z'. discriminate Z'.
Qed.
Print Assumptions C112_rows_change.
(** the hypotheses of all three: the runs of C112_rows_change, on a chart without negative prices *)
Example C112_hyp : (forall k, In k (ramps 213 ++ later) -> (cClose k <~ fzero) = false) /\
  rmap (fun e => len (sData e)) (smc_run (smc_params 5 3 1) (ramps 213)) = Ok 213 /\
  rmap (fun e => map (fun r => ftrunc (HighBOSLong (rVal r))) (firstn 5 (skipn 198 (sData e)))) (smc_run (smc_params 5 3 1) (ramps 213 ++ later)) = Ok [0; 0; 143; 143; 143].
Proof.
  split; [|split; vm_compute; reflexivity].
  assert (A : forallb (fun k => negb (cClose k <~ fzero)) (ramps 213 ++ later) = true) by (vm_compute; reflexivity).
  intros k Hk. rewrite forallb_forall in A. specialize (A k Hk). now apply negb_true_iff in A.
Qed.
