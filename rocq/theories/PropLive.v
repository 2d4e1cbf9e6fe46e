(** * PropLive: C93, objects whose candles change between calls. *)
From Coq Require Import String.
From Verif Require Import Base Num B64 XReal Lits Containers Ta TaTools Sides Klines KlineProofs3 CountLaw
  IndBase IndTrend IndChannel IndVolume IndOsc IndAll IndTools IndForms IndSides SpecInd IndLife PropInd1 Crash CrashSides SpecLive.
Set Implicit Arguments.
Open Scope Z_scope.

(** ** Loops over a slice with a tail *)
Lemma for_grow S (g : S -> S) lo hi (b b' : Z -> S -> res S) : (forall i s s1, lo <= i < hi -> b i s = Ok s1 -> b' i (g s) = Ok (g s1)) ->
  forall s s1, for_ lo hi b s = Ok s1 -> for_ lo hi b' (g s) = Ok (g s1).
Proof.
  unfold for_. remember (Z.to_nat (hi - lo)) as n eqn:En. revert lo En. induction n as [|n IH]; intros lo En H s s1 E; cbn [loop] in *; [congruence|].
  apply bind_ok in E as (s2 & E1 & E2). rewrite (H lo s s2 ltac:(lia) E1). cbn [bind].
  apply (IH (lo + 1)); [lia| |exact E2]. intros i u u1 Hi. apply H. lia.
Qed.
Lemma for_panic S (P : S -> Prop) lo hi (b : Z -> S -> res S) k : lo <= k < hi -> (forall s, P s -> b k s = Panic) ->
  (forall i s s1, lo <= i < hi -> P s -> b i s = Ok s1 -> P s1) -> forall s, P s -> for_ lo hi b s = Panic.
Proof.
  unfold for_. remember (Z.to_nat (hi - lo)) as n eqn:En. revert lo En. induction n as [|n IH]; intros lo En Hk Hp H s Hs; cbn [loop]; [lia|].
  destruct (b lo s) as [s2|] eqn:E; [|reflexivity]. cbn [bind]. destruct (Z.eq_dec lo k) as [->|]; [rewrite (Hp s Hs) in E; discriminate|].
  apply (IH (lo + 1)); [lia|lia|exact Hp| |exact (H lo s s2 ltac:(lia) Hs E)]. intros i u u1 Hi. apply H. lia.
Qed.
Lemma bind_panic A B (m : res A) : bind m (fun _ => @Panic B) = Panic.
Proof. now destruct m. Qed.
Lemma bind_panic' A B (m : res A) (f : A -> res B) : (forall a, f a = Panic) -> bind m f = Panic.
Proof. intros H. destruct m; [apply H|reflexivity]. Qed.
Lemma set_len A (l l' : list A) i v : set l i v = Ok l' -> List.length l' = List.length l.
Proof. intros E. apply set_inv in E as [_ ->]. apply upd_length. Qed.

Section L.
Context {N : Num}.
Implicit Types I : Indicator (N := N).

(** ** More candles than rows *)
Lemma ohlc_app (kl later : list Candle) : exists o o', GetOHLC kl = Ok o /\ GetOHLC (kl ++ later) = Ok o' /\
  oClose o' = oClose o ++ map (fun c => cClose c) later /\ oOpen o' = oOpen o ++ map (fun c => cOpen c) later.
Proof. rewrite !GetOHLC_spec. do 2 eexists. repeat split; cbn [oClose oOpen]; now rewrite map_app. Qed.
Lemma analyse_grow A n k from (d : list (row A)) rule rule' s :
  (forall i v w x, rule i v w = Ok x -> rule' i v w = Ok x) -> 0 <= n ->
  analyse n from d rule = Ok s -> analyse (n + Z.of_nat k) from d rule' = Ok (s ++ repeat Buy k).
Proof.
  intros Hr Hn E. unfold analyse in *. rewrite make_ok in * by lia. cbn [bind] in *.
  replace (Z.to_nat (n + Z.of_nat k)) with (Z.to_nat n + k)%nat by lia. rewrite repeat_app.
  unfold range_ in *. eapply (@for_grow _ (fun l => l ++ repeat Buy k)); [|exact E].
  intros i l l1 Hi E1. apply bind_ok in E1 as (v & -> & E1). cbn [bind]. destruct (i <? from); [congruence|].
  apply bind_ok in E1 as (w & -> & E1). cbn [bind]. apply bind_ok in E1 as (x & E0 & E1). rewrite (Hr _ _ _ _ E0). cbn [bind]. now apply set_app_l.
Qed.
Lemma len_app A (l t : list A) : len (l ++ t) = len l + Z.of_nat (List.length t).
Proof. unfold len. rewrite app_length. lia. Qed.
Lemma grow_crossing A kl later (d : list (row A)) b s r : crossing kl d b s = Ok r -> crossing (kl ++ later) d b s = Ok (r ++ repeat Buy (List.length later)).
Proof. unfold crossing. rewrite len_app. apply analyse_grow; [auto|apply len_nonneg]. Qed.
Lemma grow_proj kl later d r : proj_sides kl d = Ok r -> proj_sides (kl ++ later) d = Ok (r ++ repeat Buy (List.length later)).
Proof. unfold proj_sides. rewrite len_app. apply analyse_grow; [auto|apply len_nonneg]. Qed.
Lemma grow_price A kl later (d : list (row A)) b s r : price_crossing kl d b s = Ok r -> price_crossing (kl ++ later) d b s = Ok (r ++ repeat Buy (List.length later)).
Proof.
  unfold price_crossing. destruct (ohlc_app kl later) as (o & o' & -> & -> & EC & _). cbn [bind]. rewrite len_app, EC. apply analyse_grow; [|apply len_nonneg].
  intros i v w x E. apply bind_ok in E as (c & E1 & E). apply bind_ok in E as (c' & E2 & E).
  rewrite (@get_app_l _ _ _ _ _ E1). cbn [bind]. now rewrite (@get_app_l _ _ _ _ _ E2).
Qed.
Lemma grow_ichi p kl later d r : ichi_sides p kl d = Ok r -> ichi_sides p (kl ++ later) d = Ok (r ++ repeat Buy (List.length later)).
Proof.
  unfold ichi_sides. destruct (ohlc_app kl later) as (o & o' & -> & -> & EC & _). cbn [bind]. rewrite len_app, EC. apply analyse_grow; [|apply len_nonneg].
  intros i v w x E. apply bind_ok in E as (c & E1 & E). apply bind_ok in E as (c' & E2 & E).
  rewrite (@get_app_l _ _ _ _ _ E1). cbn [bind]. now rewrite (@get_app_l _ _ _ _ _ E2).
Qed.
Lemma grow_cam p kl later d r : cam_sides p kl d = Ok r -> cam_sides p (kl ++ later) d = Ok (r ++ repeat Buy (List.length later)).
Proof.
  unfold cam_sides. destruct (ohlc_app kl later) as (o & o' & -> & -> & EC & EO). rewrite !make_len. cbn [bind].
  destruct (cam_calc0 _ _) as [days|]; [|discriminate]. cbn [bind]. rewrite EC, EO. intros E. apply bind_ok in E as ([c s] & E1 & E). injection E as <-.
  unfold range_ in *. rewrite app_length, repeat_app.
  match goal with |- bind (for_ ?lo ?hi ?bd _) _ = _ =>
    assert (G : for_ lo hi bd (None, repeat Buy (List.length kl) ++ repeat Buy (List.length later)) = Ok (c, s ++ repeat Buy (List.length later))) end.
  { apply (@for_grow _ (fun q => (fst q, snd q ++ repeat Buy (List.length later))) _ _ _ _) with (2 := E1).
    intros i [u l] [u1 l1] Hi E. cbn [fst snd] in *. apply bind_ok in E as (v & -> & E). cbn [bind]. apply bind_ok in E as (cl & Ec & E). rewrite (@get_app_l _ _ _ _ _ Ec). cbn [bind].
    apply bind_ok in E as (op & Eo & E). rewrite (@get_app_l _ _ _ _ _ Eo). cbn [bind]. apply bind_ok in E as (l2 & Es & E). rewrite (@set_app_l _ _ _ _ _ _ Es). cbn [bind]. congruence. }
  rewrite G. reflexivity.
Qed.
Lemma grow_sides I f p kl later d s : In I all_indicators -> keeps_copy I = false -> Sides I = Some f ->
  f p kl d = Ok s -> f p (kl ++ later) d = Ok (s ++ repeat Buy (List.length later)).
Proof.
  intros H C Hs E. unfold all_indicators, append_style, make_style in H. cbn [app In] in H.
  repeat (destruct H as [<-|H]); try (destruct H); try discriminate C; cbn in Hs; try discriminate Hs; injection Hs as <-;
    first [now apply grow_crossing | now apply grow_price | now apply grow_proj | now apply grow_ichi | now apply grow_cam].
Qed.

(** ** Fewer candles than rows *)
Lemma analyse_shrink A n from (d : list (row A)) rule : 0 <= n -> n < len d -> from < len d -> analyse n from d rule = Panic.
Proof.
  intros Hn H1 H2. unfold analyse, range_. rewrite make_ok by lia. cbn [bind]. pose proof (len_nonneg d).
  apply (@for_panic _ (fun l => List.length l = Z.to_nat n)) with (k := Z.max n from); [lia| | |apply repeat_length].
  - intros l Hl. apply bind_panic'. intros v. replace (Z.max n from <? from) with false by lia. apply bind_panic'. intros w. apply bind_panic'. intros x.
    apply set_out. unfold len. lia.
  - intros i l l1 _ Hl E. apply bind_ok in E as (v & _ & E). destruct (i <? from); [congruence|].
    apply bind_ok in E as (w & _ & E). apply bind_ok in E as (x & _ & E). apply set_len in E. congruence.
Qed.
Lemma cam_shrink p kl d : len kl < len d -> cam_sides p kl d = Panic.
Proof.
  intros H. unfold cam_sides, range_. rewrite make_len. cbn [bind]. apply bind_panic'. intros days. apply bind_panic'. intros o.
  rewrite (@for_panic _ (fun q => List.length (snd q) = List.length kl)) with (k := len kl); [reflexivity|pose proof (len_nonneg kl); lia| | |apply repeat_length].
  - intros [u l] Hl. cbn [snd] in Hl. apply bind_panic'. intros v. apply bind_panic'. intros c. apply bind_panic'. intros op. rewrite set_out by (unfold len; lia). reflexivity.
  - intros i [u l] [u1 l1] _ Hl E. cbn [snd] in *. apply bind_ok in E as (v & _ & E). apply bind_ok in E as (c & _ & E). apply bind_ok in E as (op & _ & E).
    apply bind_ok in E as (l2 & Es & E). injection E as <- <-. apply set_len in Es. congruence.
Qed.
Lemma shrink_sides I f p kl d : In I all_indicators -> keeps_copy I = false -> Sides I = Some f -> I <> I_Ichimoku ->
  (1 <= List.length kl < List.length d)%nat -> f p kl d = Panic.
Proof.
  intros H C Hs Hi L. unfold all_indicators, append_style, make_style in H. cbn [app In] in H.
  assert (L1 : len kl < len d) by (unfold len; lia). assert (L2 : 1 < len d) by (unfold len; lia). pose proof (len_nonneg kl) as L3.
  repeat (destruct H as [<-|H]); try (destruct H); try discriminate C; try (now destruct Hi); cbn in Hs; try discriminate Hs; injection Hs as <-;
    first [now apply cam_shrink | now apply analyse_shrink | unfold price_crossing; apply bind_panic'; intros; now apply analyse_shrink
         | cbv delta [rsi_sides kd_sides]; now apply analyse_shrink].
Qed.
Lemma shrink_ichi p kl d : len kl < len d -> icConv p < len d -> ichi_sides p kl d = Panic.
Proof. intros L1 L2. unfold ichi_sides. apply bind_panic'. intros. apply analyse_shrink; auto using len_nonneg. Qed.
End L.

(** ** Recalculation *)
Ltac pushb := repeat (cbn beta iota zeta; first
  [ apply append_rows_app
  | match goal with
    | |- bind ?m _ = bind (bind ?m _) _ => destruct m; [cbn [bind]|reflexivity]
    | x : (_ * _)%type |- _ => destruct x
    end ]).
Lemma append_any (N : Num) (I : Indicator (N := N)) p kl rows : In I append_style -> I <> I_Obv ->
  Calculation I p kl rows = (e <- rows_of I p kl ;; Ok (rows ++ e)).
Proof.
  intros H Ho. change (rows_of I p kl) with (Calculation I p kl []). unfold append_style in H. cbn [In] in H.
  repeat (destruct H as [<-|H]; [try (now destruct Ho)|]); try (destruct H); cbn in p;
    cbn [Calculation I_Ma I_Rsi I_StochRsi I_Cci I_AiCoinCCI I_Vortex I_StochasticHeat I_Donchian I_Keltner I_Ulcer
     I_AD I_CMF I_EMV I_Force I_MFI I_NVI I_VPT I_Vwma I_AO I_Chaikin I_Ichimoku I_PPO I_Projection I_Stoch I_Williams];
    try (destruct p; apply ad_app; fail);
    unfold ma_calc, rsi_calc, stochrsi_calc, cci_calc, aicoin_calc, vortex_calc, heat_calc, donchian_calc,
      keltner_calc, ulcer_calc, cmf_calc, emv_calc, force_calc, mfi_calc, nvi_calc, vpt_calc, vwma_calc,
      ao_calc, chaikin_calc, ichi_calc, ppo_calc, proj_calc, stoch_calc, williams_calc; pushb.
Qed.
Lemma session_copy (N : Num) (I : Indicator (N := N)) p born now evs data : keeps_copy I = true ->
  session I p born now evs data = calls I p born (calls_of evs) data.
Proof.
  intros C. revert now data. induction evs as [|[o|kl] evs IH]; intros now data; cbn [session calls_of flat_map app calls]; [reflexivity| |apply IH].
  rewrite C. destruct (call I p born o data) as [[d a]|]; [|reflexivity]. cbn [bind]. fold (calls_of evs). now rewrite IH.
Qed.
Lemma copies_make (N : Num) (I : Indicator (N := N)) : In I all_indicators -> keeps_copy I = true -> In I make_style.
Proof.
  intros H C. unfold all_indicators, append_style in H. cbn [app In] in H.
  do 26 (destruct H as [<-|H]; [discriminate C|]). apply in_app_or in H as [H|[<-|[]]]; [exact H|discriminate C].
Qed.
Lemma GetData_full (N : Num) (I : Indicator (N := N)) p kl d : d <> [] -> GetData I p kl d = Ok d.
Proof. intros H. unfold GetData. destruct d; [congruence|reflexivity]. Qed.
Lemma session_reads (N : Num) (I : Indicator (N := N)) p born now evs d l : d <> [] -> ~ In CallCalculation (calls_of evs) ->
  session I p born now evs d = Ok l -> forall r, In (Rows r) l -> r = d.
Proof.
  intros Hd. revert now l. induction evs as [|[o|kl] evs IH]; intros now l Hn E r Hr; cbn [session calls_of flat_map app] in *; [injection E as <-; destruct Hr| |eapply IH; eassumption].
  apply bind_ok in E as ([d' a] & Ec & E). apply bind_ok in E as (l' & El & E). injection E as <-.
  assert (Hd' : d' = d /\ forall q, a = Rows q -> q = d).
  { destruct o; cbn [call] in Ec.
    - exfalso. apply Hn. now left.
    - rewrite GetData_full in Ec by exact Hd. cbn [bind] in Ec. injection Ec as <- <-. split; [reflexivity|congruence].
    - apply bind_ok in Ec as ([q s] & Ea & Ec). injection Ec as <- <-. unfold AnalysisSide in Ea. destruct (Sides I); [|discriminate].
      rewrite GetData_full in Ea by exact Hd. cbn [bind] in Ea. apply bind_ok in Ea as (s' & _ & Ea). injection Ea as <- <-. split; [reflexivity|discriminate]. }
  destruct Hd' as [-> Ha]. destruct Hr as [->|Hr]; [now apply Ha|]. eapply IH; [|exact El|exact Hr]. intros Hi. apply Hn. fold (calls_of evs). now right.
Qed.

(** ** C93 *)
(** Nine types copy the candles when they are constructed: whatever happens to the
    candles afterwards, and whatever is called, every call answers as on a new object
    over the candles of the construction. *)
Theorem C93_copies (N : Num) (I : Indicator (N := N)) (p : Param I) (kl : list Candle) (evs : list event) (l : list (answer (Val I))) :
  In I all_indicators -> keeps_copy I = true ->
  on I p kl evs = Ok l -> Forall2 (as_first I p kl) (calls_of evs) l.
Proof.
  intros H C E. unfold on in E. rewrite session_copy in E by exact C. eapply C41_Calculation_partial; [now apply copies_make|exact E].
Qed.
Print Assumptions C93_copies.
(** The other types look at the candles of the moment, but GetData calculates only once:
    later reads answer with the first rows however the candles have changed. *)
Theorem C93_reads (N : Num) (I : Indicator (N := N)) (p : Param I) (kl : list Candle) (evs : list event) (r : list (row (Val I))) (l : list (answer (Val I))) :
  ~ In CallCalculation (calls_of evs) -> r <> [] ->
  on I p kl (Call CallGetData :: evs) = Ok (Rows r :: l) -> forall r', In (Rows r') l -> r' = r.
Proof.
  intros Hn Hr E. unfold on in E. cbn [session] in E. apply bind_ok in E as ([d a] & Ec & E). apply bind_ok in E as (l' & El & E). injection E as -> ->.
  cbn [call] in Ec. apply bind_ok in Ec as (q & Eq & Ec). injection Ec as -> ->. eapply session_reads; eassumption.
Qed.
Print Assumptions C93_reads.
(** Calling Calculation again after the candles changed: the types that allocate their
    rows report the rows of the new candles ... *)
Theorem C93_recalculated (N : Num) (I : Indicator (N := N)) (p : Param I) (kl kl' : list Candle) (r r' : list (row (Val I))) :
  In I make_style \/ I = I_Rma -> keeps_copy I = false -> rows_of I p kl = Ok r -> rows_of I p kl' = Ok r' ->
  on I p kl [Call CallGetData; Candles kl'; Call CallCalculation; Call CallGetData] = Ok [Rows r; Done; Rows r'].
Proof.
  intros HI C E E'. unfold on. cbn [session call]. rewrite C. fold (rows_of I p kl). rewrite E. cbn [bind].
  assert (M : Calculation I p kl' r = Calculation I p kl' []) by (destruct HI as [HI| ->]; [exact (make_pure p kl' r [] HI)|reflexivity]). rewrite M. change (Calculation I p kl' []) with (rows_of I p kl'). rewrite E'. cbn [bind].
  destruct r' as [|x r']; [|rewrite GetData_full by discriminate; reflexivity].
  unfold GetData. cbn [len List.length Z.of_nat Z.eqb]. change (Calculation I p kl' []) with (rows_of I p kl'). rewrite E'. reflexivity.
Qed.
Print Assumptions C93_recalculated.
(** ... and the types that append keep the old rows in front of them. *)
Theorem C93_appended (N : Num) (I : Indicator (N := N)) (p : Param I) (kl kl' : list Candle) (r r' : list (row (Val I))) :
  In I append_style -> I <> I_Obv -> r <> [] -> rows_of I p kl = Ok r -> rows_of I p kl' = Ok r' ->
  on I p kl [Call CallGetData; Candles kl'; Call CallCalculation; Call CallGetData] = Ok [Rows r; Done; Rows (r ++ r')].
Proof.
  intros HI Ho Hr E E'. unfold on. cbn [session call].
  assert (C : keeps_copy I = false).
  { unfold append_style in HI. cbn [In] in HI. repeat (destruct HI as [<-|HI]; [reflexivity|]). destruct HI. }
  rewrite C. fold (rows_of I p kl). rewrite E. cbn [bind]. rewrite append_any by assumption. rewrite E'. cbn [bind].
  rewrite GetData_full by (destruct r; [congruence|discriminate]). reflexivity.
Qed.
Print Assumptions C93_appended.
(** Obv adds to the row it finds at the previous index, which by then is an old row:
    the appended values are wrong (0, 1, 2, 1, 2 instead of 0, 1, 2, 3, 4). *)
Theorem C93_Obv_refuted : exists r r',
  on (N := EX) I_Obv tt (flat [5; 6]) [Call CallGetData; Candles (flat [5; 6; 7; 8; 9]); Call CallCalculation; Call CallGetData] = Ok [Rows r; Done; Rows r'] /\
  map (fun x => rVal x) r' = map fz [0; 1; 0; 1; 2; 1; 2] /\
  rmap (map (fun x => rVal x)) (rows_of (N := EX) I_Obv tt (flat [5; 6; 7; 8; 9])) = Ok (map fz [0; 1; 2; 3; 4]).
Proof. do 2 eexists. split; [reflexivity|]. split; vm_compute; reflexivity. Qed.
Print Assumptions C93_Obv_refuted.
(** Candles appended, AnalysisSide called again: the old signals, and BUY for every new candle. *)
Theorem C93_new_candles_buy (N : Num) (I : Indicator (N := N)) (p : Param I) (kl later : list Candle) (s : list Side) :
  In I all_indicators -> keeps_copy I = false -> kl <> [] -> counts I (length kl) -> sides_of I p kl = Ok s ->
  on I p kl [Call CallAnalysisSide; Candles (kl ++ later); Call CallAnalysisSide] = Ok [SideList s; SideList (s ++ repeat Buy (length later))].
Proof.
  intros HI C Hk Hc E. pose proof (@sides_inv _ _ _ _ _ E) as (f & d & Hs & Ed & Ef).
  assert (Hd : d <> []).
  { intros ->. assert (L : List.length (A := row (Val I)) [] = List.length kl).
    { eapply rows_one; [|exact Hc|exact Ed]. unfold all_indicators in HI. apply in_app_or in HI as [HI|HI]; [now left|right].
      apply in_app_or in HI as [HI|[<-|[]]]; [exact HI|discriminate Hs]. }
    destruct kl; [congruence|discriminate L]. }
  unfold on. cbn [session call]. rewrite C. unfold AnalysisSide. rewrite Hs. fold (rows_of I p kl). rewrite Ed. cbn [bind]. rewrite Ef. cbn [bind].
  rewrite GetData_full by exact Hd. cbn [bind]. erewrite grow_sides by eassumption. reflexivity.
Qed.
Print Assumptions C93_new_candles_buy.
(** Candles removed, AnalysisSide called again: a crash. *)
Theorem C93_removed_candles_crash (N : Num) (I : Indicator (N := N)) (p : Param I) (kl kl' : list Candle) (s : list Side) :
  In I all_indicators -> keeps_copy I = false -> I <> I_Ichimoku -> counts I (length kl) -> (1 <= length kl' < length kl)%nat -> sides_of I p kl = Ok s ->
  on I p kl [Call CallAnalysisSide; Candles kl'; Call CallAnalysisSide] = Panic.
Proof.
  intros HI C Hi Hc Hk E. pose proof (@sides_inv _ _ _ _ _ E) as (f & d & Hs & Ed & Ef).
  assert (L : List.length d = List.length kl).
  { eapply rows_one; [|exact Hc|exact Ed]. unfold all_indicators in HI. apply in_app_or in HI as [HI|HI]; [now left|right].
    apply in_app_or in HI as [HI|[<-|[]]]; [exact HI|discriminate Hs]. }
  unfold on. cbn [session call]. rewrite C. unfold AnalysisSide. rewrite Hs. fold (rows_of I p kl). rewrite Ed. cbn [bind]. rewrite Ef. cbn [bind].
  rewrite GetData_full by (intros ->; cbn in L; lia). cbn [bind]. erewrite shrink_sides; try eassumption; [reflexivity|]. rewrite L. exact Hk.
Qed.
Print Assumptions C93_removed_candles_crash.
Theorem C93_removed_candles_crash_Ichimoku (N : Num) (p : IchiP) (kl kl' : list Candle) (s : list Side) :
  (length kl' < length kl)%nat -> icConv p < Z.of_nat (length kl) -> sides_of (N := N) I_Ichimoku p kl = Ok s ->
  on (N := N) I_Ichimoku p kl [Call CallAnalysisSide; Candles kl'; Call CallAnalysisSide] = Panic.
Proof.
  intros Hk Hp E. pose proof (@sides_inv _ _ _ _ _ E) as (f & d & Hs & Ed & Ef).
  assert (L : List.length d = List.length kl).
  { eapply (@rows_one N I_Ichimoku); [left; unfold append_style; cbn; tauto|discriminate|exact Ed]. }
  unfold on. cbn [session call]. change (keeps_copy (N := N) I_Ichimoku) with false. cbn iota. unfold AnalysisSide. rewrite Hs. fold (rows_of (N := N) I_Ichimoku p kl). rewrite Ed. cbn [bind]. rewrite Ef. cbn [bind].
  rewrite GetData_full by (intros ->; cbn in L; lia). cbn [bind]. injection Hs as <-. rewrite shrink_ichi; [reflexivity| |]; cbn [Val I_Ichimoku] in L; unfold len; rewrite ?L; lia.
Qed.
Print Assumptions C93_removed_candles_crash_Ichimoku.
Example C93_hyp :
  on (N := EX) I_Donchian 2 (flat [5; 6; 9; 1]) [Call CallAnalysisSide; Candles (flat [5; 6; 9; 1] ++ flat [0; 0]); Call CallAnalysisSide] =
    Ok [SideList [Buy; Hold; Hold; Sell]; SideList [Buy; Hold; Hold; Sell; Buy; Buy]] /\
  on (N := EX) I_Donchian 2 (flat [5; 6; 9; 1]) [Call CallAnalysisSide; Candles (flat [5; 6; 9]); Call CallAnalysisSide] = Panic /\
  rmap (map (fun a => match a with Rows r => length r | _ => 0%nat end)) (on (N := EX) I_TraderXO (mkXOP 1 2) (flat [5; 6])
    [Call CallGetData; Candles (flat [5; 6; 7]); Call CallCalculation; Call CallGetData]) = Ok [2; 0; 2]%nat /\
  rmap (map (fun a => match a with Rows r => length r | _ => 0%nat end)) (on (N := EX) I_Sma 2 (flat [5; 6])
    [Call CallGetData; Candles (flat [5; 6; 7]); Call CallGetData; Call CallCalculation; Call CallGetData]) = Ok [2; 2; 0; 3]%nat /\
  rmap (map (fun a => match a with Rows r => length r | _ => 0%nat end)) (on (N := EX) I_Ma 2 (flat [5; 6])
    [Call CallGetData; Candles (flat [5; 6; 7]); Call CallCalculation; Call CallGetData]) = Ok [2; 0; 5]%nat.
Proof. repeat split; vm_compute; reflexivity. Qed.
