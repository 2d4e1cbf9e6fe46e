(** * IndLife: lengths, times and repeated calls. *)
From Verif Require Import Base Num Containers Ta TaTools TaElem TaStat TaCausal Regression Sides Klines
  KlineProofs3 CountLaw IndBase IndTrend IndChannel IndVolume IndOsc IndAll IndTools IndCausal IndSides SpecInd.
Set Implicit Arguments.

Section L.
Context {N : Num}.
Implicit Types I : Indicator (N := N).

Lemma Rlist_firstn A n m (a b : list A) : Rlist n m a b -> firstn n b = a.
Proof.
  intros H. destruct (Rlist_prefix H) as [t ->]. rewrite firstn_app.
  rewrite (Rlist_length H), Nat.sub_diag. cbn [firstn]. rewrite app_nil_r.
  rewrite <- (Rlist_length H) at 1. apply firstn_all.
Qed.
Definition regular I : Prop := In I append_style \/ In I make_style.
Lemma rows_cat I : regular I -> rows_R I.
Proof. intros [H|H]; [now apply append_rows_cat|now apply make_rows_cat]. Qed.
Lemma regular_all I : regular I -> In I all_indicators.
Proof. unfold all_indicators. intros [H|H]; apply in_or_app; [now left|right; apply in_or_app; now left]. Qed.

Lemma Rlist_self A (l : list A) : Rlist (length l) (length l) l l.
Proof. repeat split; auto. Qed.
Lemma Rlist_ext A (l t : list A) : Rlist (length l) (length (l ++ t)) l (l ++ t).
Proof. apply Rlist_of_prefix. now exists t. Qed.

Lemma rows_repaint I p kl later r r' : regular I -> fits I (length (kl ++ later)) ->
  rows_of I p kl = Ok r -> rows_of I p (kl ++ later) = Ok r' -> firstn (length kl) r' = r.
Proof.
  intros HI Hf E E'. eapply Rlist_firstn. exact (rows_cat HI p (Rlist_ext kl later) Hf E E').
Qed.
Lemma rows_one I p kl r : regular I -> fits I (length kl) -> rows_of I p kl = Ok r -> length r = length kl.
Proof.
  intros HI Hf E. eapply Rlist_length. exact (rows_cat HI p (Rlist_self kl) Hf E E).
Qed.
Lemma sides_inv I p kl s : sides_of I p kl = Ok s ->
  exists f rows, Sides I = Some f /\ rows_of I p kl = Ok rows /\ f p kl rows = Ok s.
Proof.
  unfold sides_of, AnalysisSide, rows_of. destruct (Sides I) as [f|]; [|discriminate].
  intros E. unfold rmap in E. destruct (GetData I p kl []) as [d|]; [|discriminate]. cbn [bind] in E.
  destruct (f p kl d) as [q|] eqn:Ef; [|discriminate]. cbn [bind snd] in E. injection E as <-. eauto.
Qed.
Lemma sides_repaint I p kl later s s' : regular I -> fits I (length (kl ++ later)) ->
  sides_of I p kl = Ok s -> sides_of I p (kl ++ later) = Ok s' -> firstn (length kl) s' = s.
Proof.
  intros HI Hf E E'. apply sides_inv in E as (f & r & Hs & Er & E). apply sides_inv in E' as (f' & r' & Hs' & Er' & E').
  assert (f' = f) by congruence. subst f'. eapply Rlist_firstn.
  exact (sides_cat (regular_all HI) p Hs (Rlist_ext kl later) (rows_cat HI p (Rlist_ext kl later) Hf Er Er') E E').
Qed.
Lemma sides_one I p kl s : regular I -> fits I (length kl) -> sides_of I p kl = Ok s -> length s = length kl.
Proof.
  intros HI Hf E. apply sides_inv in E as (f & r & Hs & Er & E). eapply Rlist_length.
  exact (sides_cat (regular_all HI) p Hs (Rlist_self kl) (rows_cat HI p (Rlist_self kl) Hf Er Er) E E).
Qed.

(** ** Repeated calls *)
Lemma make_pure I p kl d d' : In I make_style -> Calculation I p kl d = Calculation I p kl d'.
Proof.
  intros H. unfold make_style in H. cbn [In] in H. repeat (destruct H as [<-|H]; [reflexivity|]). destruct H.
Qed.
Lemma append_rows_app A tm k f (d : list (row A)) :
  append_rows tm k f d = (e <- append_rows tm k f [] ;; Ok (d ++ e)).
Proof.
  unfold append_rows, for_.
  assert (H : forall j e lo, loop j lo (fun i data => t <- tm i ;; v <- f i ;; Ok (data ++ [mkRow t v])) (d ++ e) =
    (e <- loop j lo (fun i data => t <- tm i ;; v <- f i ;; Ok (data ++ [mkRow t v])) e ;; Ok (d ++ e))).
  { intros j. induction j as [|j IH]; intros e lo; cbn [loop]; [reflexivity|].
    destruct (tm lo); [|reflexivity]. cbn [bind]. destruct (f lo); [|reflexivity]. cbn [bind].
    rewrite <- app_assoc. apply IH. }
  specialize (H (Z.to_nat (k - 0)) [] 0). rewrite app_nil_r in H. exact H.
Qed.
Ltac pushb := repeat (cbn beta iota zeta; first
  [ apply append_rows_app
  | match goal with
    | |- bind ?m _ = bind (bind ?m _) _ => destruct m; [cbn [bind]|reflexivity]
    | x : (_ * _)%type |- _ => destruct x
    end ]).
Lemma obv_loop_app kl (o : OHLC) rows : obv_calc tt kl [] = Ok rows -> GetOHLC kl = Ok o ->
  obv_calc tt kl rows = Ok (rows ++ rows).
Proof.
  intros E Eo. pose proof (obv_length _ E) as Hl. unfold obv_calc in *. rewrite Eo in *. cbn [bind] in *.
  set (body := fun i data => _) in *.
  assert (P : forall k, (k <= length kl)%nat -> for_ 0 (Z.of_nat k) body [] = Ok (firstn k rows)).
  { intros k Hk. rewrite (@for_split _ 0 (Z.of_nat k) (len kl)) in E by (unfold len; lia).
    apply bind_ok in E as (q & Eq & E). rewrite Eq. f_equal.
    assert (Hq : length q = k).
    { apply (@for_inv_ok _ (fun j q => Z.of_nat (length q) = j)) in Eq; [lia|lia|reflexivity|].
      intros j u u' Hj Hu Ej. subst body. cbn beta in Ej. apply bind_ok in Ej as (v & _ & Ej).
      apply bind_ok in Ej as (t & _ & Ej). injection Ej as <-. rewrite app_length. cbn [length]. lia. }
    apply (@for_inv_ok _ (fun _ u => firstn k u = q)) in E; [auto|unfold len; lia| |].
    - rewrite <- Hq. apply firstn_all.
    - intros j u u' Hj Hu Ej. subst body. cbn beta in Ej. apply bind_ok in Ej as (v & _ & Ej).
      apply bind_ok in Ej as (t & _ & Ej). injection Ej as <-.
      assert (k <= length u)%nat. { rewrite <- Hu in Hq. rewrite firstn_length in Hq. lia. }
      rewrite firstn_app. replace (k - length u)%nat with 0%nat by lia. cbn [firstn]. now rewrite app_nil_r. }
  rewrite for_nat0 with (st := fun k => rows ++ firstn k rows) (l := kl).
  - now rewrite <- Hl, firstn_all.
  - cbn [firstn]. now rewrite app_nil_r.
  - intros i Hi. pose proof (P i ltac:(lia)) as P1. pose proof (P (S i) ltac:(lia)) as P2.
    replace (Z.of_nat (S i)) with (Z.of_nat i + 1) in P2 by lia.
    rewrite (@for_split _ 0 (Z.of_nat i) (Z.of_nat i + 1)) in P2 by lia. rewrite P1 in P2. cbn [bind] in P2.
    rewrite for_step in P2 by lia. apply bind_ok in P2 as (q & Eq & P2). rewrite for_empty in P2 by lia. injection P2 as ->.
    assert (B : forall d d', (forall k, k < Z.of_nat i -> get d k = get d' k) -> body (Z.of_nat i) d = Ok (d ++ skipn i (firstn (S i) rows)) ->
       body (Z.of_nat i) d' = Ok (d' ++ skipn i (firstn (S i) rows))).
    { intros d d' Hg Hb. subst body. cbn beta in *. rewrite <- (Hg (Z.of_nat i - 1)) by lia.
      apply bind_ok in Hb as (v & -> & Hb). cbn [bind]. apply bind_ok in Hb as (t & -> & Hb). cbn [bind].
      injection Hb as Hb. apply app_inv_head in Hb. now rewrite Hb. }
    assert (F : firstn (S i) rows = firstn i rows ++ skipn i (firstn (S i) rows)).
    { rewrite <- (firstn_skipn i (firstn (S i) rows)) at 1. rewrite firstn_firstn. now replace (Nat.min i (S i)) with i by lia. }
    rewrite F at 1. rewrite app_assoc. rewrite F in Eq at 1.
    eapply B; [|exact Eq]. intros k Hk. destruct (Z.lt_ge_cases k 0).
    + rewrite !get_out by (unfold len; lia). reflexivity.
    + replace k with (Z.of_nat (Z.to_nat k)) by lia. destruct rows as [|r0 rs]; [cbn in Hl; lia|].
      rewrite !get_nat with (d := r0) by (rewrite ?app_length, ?firstn_length; lia).
      rewrite app_nth1 by lia. f_equal. rewrite <- (firstn_skipn i (r0 :: rs)) at 2.
      rewrite app_nth1; [reflexivity|]. rewrite firstn_length. lia.
Qed.

Lemma ad_app kl d : ad_calc tt kl d = (e <- ad_calc tt kl [] ;; Ok (d ++ e)).
Proof.
  unfold ad_calc, for_. destruct (GetOHLC kl) as [o|]; [cbn [bind]|reflexivity].
  destruct (make _ _) as [ad|]; [cbn [bind]|reflexivity].
  set (body := fun (i : Z) st => _).
  assert (H : forall j a e lo, loop j lo body (a, d ++ e) =
    (q <- loop j lo body (a, e) ;; Ok (fst q, d ++ snd q))).
  { intros j. induction j as [|j IH]; intros a e lo; cbn [loop]; [reflexivity|].
    subst body. cbn beta iota.
    destruct (if lo >? 0 then p <- get a (lo - 1) ;; set a lo p else Ok a) as [b1|]; [cbn [bind]|reflexivity].
    destruct (get (oVolume o) lo); [cbn [bind]|reflexivity].
    destruct (get (oClose o) lo); [cbn [bind]|reflexivity].
    destruct (get (oLow o) lo); [cbn [bind]|reflexivity].
    destruct (get (oHigh o) lo); [cbn [bind]|reflexivity]. cbn zeta.
    destruct (get b1 lo); [cbn [bind]|reflexivity].
    destruct (set b1 lo _) as [b2|]; [cbn [bind]|reflexivity].
    destruct (time_at kl lo); [cbn [bind]|reflexivity].
    destruct (get b2 lo); [cbn [bind]|reflexivity].
    rewrite <- app_assoc. apply IH. }
  specialize (H (Z.to_nat (len ad - 0)) ad [] 0). rewrite app_nil_r in H. rewrite H.
  destruct (loop (Z.to_nat (len ad - 0)) 0 body (ad, [])) as [[? ?]|]; reflexivity.
Qed.
Lemma append_again I p kl rows : In I append_style -> rows_of I p kl = Ok rows ->
  Calculation I p kl rows = Ok (rows ++ rows).
Proof.
  intros H E.
  assert (D : (exists e : unit, I = I_Obv) \/ Calculation I p kl rows = (e <- Calculation I p kl [] ;; Ok (rows ++ e))).
  { clear E. unfold append_style in H. cbn [In] in H.
    repeat (destruct H as [<-|H]; [first [left; exists tt; reflexivity|right]|]); try (destruct H); cbn in p;
    cbn [Calculation I_Ma I_Rsi I_StochRsi I_Cci I_AiCoinCCI I_Vortex I_StochasticHeat I_Donchian I_Keltner I_Ulcer
     I_AD I_CMF I_EMV I_Force I_MFI I_NVI I_VPT I_Vwma I_AO I_Chaikin I_Ichimoku I_PPO I_Projection I_Stoch I_Williams];
    try (destruct p; apply ad_app; fail);
    unfold ma_calc, rsi_calc, stochrsi_calc, cci_calc, aicoin_calc, vortex_calc, heat_calc, donchian_calc,
      keltner_calc, ulcer_calc, cmf_calc, emv_calc, force_calc, mfi_calc, nvi_calc, vpt_calc, vwma_calc,
      ao_calc, chaikin_calc, ichi_calc, ppo_calc, proj_calc, stoch_calc, williams_calc; pushb. }
  destruct D as [[_ ->]|D].
  - destruct p. apply (@obv_loop_app kl (mkOHLC (map cOpen kl) (map cHigh kl) (map cLow kl) (map cClose kl)
      (map cVolume kl) (map cBull kl) (map cTime kl))); [exact E|apply GetOHLC_spec].
  - rewrite D. change (Calculation I p kl []) with (rows_of I p kl). now rewrite E.
Qed.

(** reads never change anything *)
Lemma calls_reads I p kl ops data : ~ In CallCalculation ops -> (data = [] \/ rows_of I p kl = Ok data) ->
  forall l, calls I p kl ops data = Ok l -> Forall2 (as_first I p kl) ops l.
Proof.
  revert data. induction ops as [|o ops IH]; intros data Hn Hd l E; cbn [calls] in E; [injection E as <-; constructor|].
  apply bind_ok in E as ([d a] & Ec & E). apply bind_ok in E as (l' & El & E). injection E as <-.
  assert (G : forall q, GetData I p kl data = Ok q -> rows_of I p kl = Ok q).
  { intros q Eq. destruct Hd as [->|Hd]; [exact Eq|]. unfold GetData in Eq.
    destruct (len data =? 0) eqn:E0; [|congruence].
    assert (data = []) by (destruct data; [reflexivity|discriminate E0]). subst data. unfold rows_of, GetData. exact Eq. }
  destruct o; cbn [call] in Ec.
  - exfalso. apply Hn. now left.
  - apply bind_ok in Ec as (q & Eq & Ec). injection Ec as <- <-. apply G in Eq.
    constructor; [exact Eq|]. eapply IH; [| |exact El]; [intros Hi; apply Hn; now right|now right].
  - apply bind_ok in Ec as ([q s] & Eq & Ec). injection Ec as <- <-.
    unfold AnalysisSide in Eq. destruct (Sides I) as [f|] eqn:Ef; [|discriminate].
    apply bind_ok in Eq as (d & Ed & Eq). apply bind_ok in Eq as (s' & Es & Eq). injection Eq as <- <-.
    apply G in Ed. constructor; [|eapply IH; [| |exact El]; [intros Hi; apply Hn; now right|now right]].
    cbn [as_first]. unfold sides_of, AnalysisSide. rewrite Ef. unfold rows_of in Ed. rewrite Ed. cbn [bind]. rewrite Es. reflexivity.
Qed.
Lemma calls_make I p kl ops data : In I make_style -> (data = [] \/ rows_of I p kl = Ok data) ->
  forall l, calls I p kl ops data = Ok l -> Forall2 (as_first I p kl) ops l.
Proof.
  intros HI. revert data. induction ops as [|o ops IH]; intros data Hd l E; cbn [calls] in E; [injection E as <-; constructor|].
  apply bind_ok in E as ([d a] & Ec & E). apply bind_ok in E as (l' & El & E). injection E as <-.
  assert (G : forall q, GetData I p kl data = Ok q -> rows_of I p kl = Ok q).
  { intros q Eq. destruct Hd as [->|Hd]; [exact Eq|]. unfold GetData in Eq.
    destruct (len data =? 0) eqn:E0; [|congruence].
    assert (data = []) by (destruct data; [reflexivity|discriminate E0]). subst data. unfold rows_of, GetData. exact Eq. }
  destruct o; cbn [call] in Ec.
  - apply bind_ok in Ec as (q & Eq & Ec). injection Ec as <- <-.
    rewrite (make_pure p kl data [] HI) in Eq.
    constructor; [exact Logic.I|]. eapply IH; [right; exact Eq|exact El].
  - apply bind_ok in Ec as (q & Eq & Ec). injection Ec as <- <-. apply G in Eq.
    constructor; [exact Eq|]. eapply IH; [|exact El]. now right.
  - apply bind_ok in Ec as ([q s] & Eq & Ec). injection Ec as <- <-.
    unfold AnalysisSide in Eq. destruct (Sides I) as [f|] eqn:Ef; [|discriminate].
    apply bind_ok in Eq as (d & Ed & Eq). apply bind_ok in Eq as (s' & Es & Eq). injection Eq as <- <-.
    apply G in Ed. constructor; [|eapply IH; [|exact El]; now right].
    cbn [as_first]. unfold sides_of, AnalysisSide. rewrite Ef. unfold rows_of in Ed. rewrite Ed. cbn [bind]. rewrite Es. reflexivity.
Qed.
End L.
