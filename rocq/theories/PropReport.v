(** * PropReport: properties C100 (a strategy's name identifies it), C101 (the
    demonstration program) and C102 (signals are Buy, Sell or Hold).

    [names] (Report.v) lists the types that can be handed to RunStrategies, with
    the Name their constructors give; a [Chosen] is one object: a type of the
    list and its parameters.  The texts of floats and times are arbitrary. *)
From Coq Require Import String Ascii.
From Verif Require Import Base Num B64 XReal Lits Sides Klines CountLaw SpecKlines KlineProofs1 TaTools
  IndBase IndTrend IndChannel IndVolume IndOsc IndAll IndFormsSpec PropInd1 Crash CrashTa CrashInd CrashSides PropCrash Report ReportProofs.
Set Implicit Arguments.
Open Scope Z_scope.

Ltac open_names := cbv beta delta [nm_Rsi nm_StochRsi nm_Cci nm_AiCoinCCI nm_StochasticHeat nm_Donchian nm_Keltner nm_Boll nm_MFI nm_APO nm_AO nm_Camarilla nm_Chaikin nm_Ichimoku nm_PPO nm_Projection nm_Stoch nm_Williams nm_Macd nm_Kdj nm_SuperTrend nm_PPST nm_UTBot nm_TraderXO nm_EMAVegas] in *.

(** ** C100 *)
(** every type with an AnalysisSide method is in the list, once *)
Theorem C100_complete (N : Num) (text_f : F -> string) (I : Indicator (N := N)) :
  In I all_indicators -> Sides I <> None -> In I (map (fun d => nmI d) (names text_f)).
Proof.
  intros HI Hs. unfold all_indicators, append_style, make_style in HI. cbn [app In] in HI.
  repeat (destruct HI as [<-|HI]); try (destruct HI); cbn [Sides] in Hs; try congruence;
    unfold names; open_names; cbn [map nmI In]; tauto.
Qed.
Print Assumptions C100_complete.

(** the results come in order, each under the name of its object, with its signals *)
Theorem C100_results (N : Num) (cs : list Chosen) (kl : list Candle) (results : list SideData) :
  run_all (N := N) cs kl = Ok results ->
  Forall2 (fun c d => sdName d = name_of c /\ sides_at c kl = Ok (sdData d)) cs results.
Proof.
  intros H. apply run_all_iff in H. induction H; constructor; [tauto|assumption].
Qed.
Print Assumptions C100_results.

Definition words : list string :=
  ["Rsi"; "StochRsi"; "CCI"; "AiCoinCCI"; "StochasticHeat"; "DonchianChannel"; "KeltnerChannel"; "Boll"; "MoneyFlowIndex";
   "AbsolutePriceOscillator"; "AwesomeOscillator"; "Camarilla"; "ChaikinOscillator"; "IchimokuCloud";
   "PercentagePriceOscillator"; "ProjectionOscillator"; "StochasticOscillator"; "WilliamsR"; "Macd"; "Kdj"; "SuperTrend";
   "PivotPointSuperTrend"; "UTBot"; "TraderXO"; "EMAVegas"]%string.
Lemma words_ok (N : Num) (text_f : F -> string) :
  Forall2 (fun (d : Named (N := N)) w => forall p, letters (nmName d p) = w) (names text_f) words.
Proof.
  unfold names, words. repeat apply Forall2_cons; try apply Forall2_nil; intros p.
  all: open_names; cbn [nmName].
  all: cbn [append]; repeat (cbn [letters letter]; match goal with |- (if ?b then _ else _) = _ => change b with true; cbv iota | |- String _ _ = String _ _ => f_equal end).
  all: first [reflexivity | apply letters_dec | apply letters_dec1 | apply letters_dashed].
Qed.
Lemma F2_pick A B (P : A -> B -> Prop) l m x : Forall2 P l m -> In x l -> exists k y, nth_error l k = Some x /\ nth_error m k = Some y /\ P x y.
Proof.
  induction 1 as [|a b l m Hab H IH]; [intros []|]. intros [<-|Hx].
  - exists 0%nat, b. auto.
  - destruct (IH Hx) as (k & y & H1 & H2 & H3). exists (S k), y. auto.
Qed.
Lemma words_nodup : NoDup words.
Proof. unfold words. repeat (constructor; [cbn [In]; intros H; repeat (destruct H as [H|H]; [discriminate H|]); exact H|]). constructor. Qed.

(** two objects with the same name are of the same type *)
Theorem C100_type (N : Num) (text_f : F -> string) (c c' : Chosen (N := N)) :
  In (chD c) (names text_f) -> In (chD c') (names text_f) -> name_of c = name_of c' -> chD c = chD c'.
Proof.
  intros H H' E. destruct (F2_pick _ (@words_ok N text_f) H) as (k & w & K1 & K2 & K3).
  destruct (F2_pick _ (@words_ok N text_f) H') as (k' & w' & K1' & K2' & K3').
  unfold name_of in E. specialize (K3 (chP c)). specialize (K3' (chP c')). rewrite E, K3' in K3. subst w'.
  assert (k = k').
  { apply (proj1 (NoDup_nth_error words) words_nodup); [apply nth_error_Some; congruence|congruence]. }
  congruence.
Qed.
Print Assumptions C100_type.

(** the types whose name carries every parameter *)
Definition full_names (N : Num) : list (Named (N := N)) :=
  [nm_Rsi; nm_StochRsi; nm_Cci; nm_AiCoinCCI; nm_StochasticHeat; nm_Donchian; nm_Keltner; nm_Boll; nm_MFI; nm_AO;
   nm_Chaikin; nm_Ichimoku; nm_PPO; nm_Projection; nm_Stoch; nm_Williams; nm_Macd; nm_Kdj; nm_TraderXO].
Ltac unname H := cbn [nmName] in H; rewrite ?append_inj, ?dashed_cons, ?dashed_one, ?dec_dash, ?dec_iff in H.
Lemma full_ok (N : Num) : Forall (fun d => forall p p', nmName d p = nmName d p' -> p = p') (full_names N).
Proof.
  unfold full_names. repeat apply Forall_cons; try apply Forall_nil; intros p p' H.
  all: open_names; cbn [nmI Param] in *; unname H.
  all: try exact H.
  all: destruct p, p'; try reflexivity; cbn in H.
  all: repeat match goal with H : _ /\ _ |- _ => destruct H end; subst; try reflexivity.
  apply dec_split in H as [E1 E2]; [|reflexivity|reflexivity]. injection E2 as E2. apply dec_inj in E1, E2. now subst.
Qed.

(** two objects of these types with the same name have the same parameters, so the
    same object twice ... *)
Theorem C100_parameters_partial (N : Num) (c c' : Chosen (N := N)) :
  In (chD c) (full_names N) -> In (chD c') (full_names N) -> name_of c = name_of c' -> c = c'.
Proof.
  intros H H' E.
  assert (I : incl (full_names N) (names (fun _ : @F N => ""%string))).
  { intros d Hd. unfold full_names in Hd. unfold names. cbn [In] in *. tauto. }
  assert (K : chD c = chD c') by (apply (@C100_type N (fun _ => ""%string)); auto).
  destruct c as [d p], c' as [d' p']. unfold name_of in E. cbn [chD chP] in *. subst d'.
  f_equal. apply (proj1 (Forall_forall _ _) (full_ok N) d H), E.
Qed.
Print Assumptions C100_parameters_partial.
(** ... and in the results of one run, the same name means the same signals *)
Theorem C100_same_name_same_signals (N : Num) (cs : list Chosen) (kl : list Candle) (results : list SideData) (d d' : SideData) :
  Forall (fun c => In (chD c) (full_names N)) cs -> run_all cs kl = Ok results -> In d results -> In d' results ->
  sdName d = sdName d' -> sdData d = sdData d'.
Proof.
  intros Hc H Hd Hd' E. apply C100_results in H.
  assert (G : forall d, In d results -> exists c, In c cs /\ sdName d = name_of c /\ sides_at c kl = Ok (sdData d)).
  { clear - H. induction H as [|c x cs rs Hx H IH]; [intros ? []|]. intros d [<-|Hd].
    - exists c. split; [now left|exact Hx].
    - destruct (IH d Hd) as (c' & H1 & H2). exists c'. split; [now right|exact H2]. }
  destruct (G d Hd) as (c & H1 & H2 & H3), (G d' Hd') as (c' & H1' & H2' & H3').
  rewrite Forall_forall in Hc.
  assert (c = c') by (apply C100_parameters_partial; auto; congruence). subst c'. congruence.
Qed.
Print Assumptions C100_same_name_same_signals.
(** the other six types: what a name leaves open *)
Theorem C100_other_names (N : Num) (text_f : F -> string) :
  (forall p p', nmName (N := N) nm_APO p = nmName (N := N) nm_APO p') /\
  (forall p p', nmName (N := N) nm_Camarilla p = nmName (N := N) nm_Camarilla p' <-> camEMA p = camEMA p') /\
  (forall p p', nmName (N := N) nm_SuperTrend p = nmName (N := N) nm_SuperTrend p' <-> stPeriod p = stPeriod p' /\ stMult p = stMult p') /\
  (forall p p', nmName (nm_PPST text_f) p = nmName (nm_PPST text_f) p' <->
     ppPeriod p = ppPeriod p' /\ ppAtr p = ppAtr p' /\ text_f (ppFactor p) = text_f (ppFactor p')) /\
  (forall p p', nmName (N := N) nm_UTBot p = nmName (N := N) nm_UTBot p' <-> utPeriod p = utPeriod p') /\
  (forall p p', nmName (N := N) nm_EMAVegas p = nmName (N := N) nm_EMAVegas p' <->
     vgS1 p = vgS1 p' /\ vgS2 p = vgS2 p' /\ vgL1 p = vgL1 p' /\ vgL2 p = vgL2 p').
Proof.
  repeat split; intros; open_names; cbn [nmI Param nmName] in *; rewrite ?append_inj, ?dashed_cons, ?dashed_one, ?dec_dash, ?dec_iff in *; tauto.
Qed.
Print Assumptions C100_other_names.
(** SuperTrend leaves out changeAtr, UTBot the ATR period, EMAVegas its first period:
    the same name, other signals *)
Definition name_fixes_signals (N : Num) (d : Named (N := N)) : Prop :=
  forall p p' kl s s', nmName d p = nmName d p' -> sides_of (nmI d) p kl = Ok s -> sides_of (nmI d) p' kl = Ok s' -> s = s'.
Definition zig : list Z := [100; 120; 90; 130; 80; 140; 70; 150; 60; 50; 40; 30; 200; 220; 240; 260].
Definition zag : list Z := map (fun z => z + 1000) [10; 5; 20; 18; 16; 12; 11; 8; 4; 2].
Definition updown : list Z := [50; 49; 48; 47; 46; 45; 44; 43; 42; 41; 40; 39; 38; 37; 60; 65; 70; 75; 80; 85].
Definition bulls (l : list Z) := map (fun c => kd (c - 1) (c + 1) (c - 2) c 1 60) l.
Theorem C100_refuted : ~ name_fixes_signals (N := EX) nm_SuperTrend /\
  ~ name_fixes_signals (N := EX) nm_UTBot /\ ~ name_fixes_signals (N := EX) nm_EMAVegas.
Proof.
  repeat split; intros H.
  - assert (E : [0; 4; 4; 4; 4; 4; 4; 4; 4; 2] = [0; 4; 4; 2; 4; 4; 4; 4; 4; 4]); [|discriminate E].
    apply (H (mkSTP 2 3 true) (mkSTP 2 3 false) (flat zag)); vm_compute; reflexivity.
  - assert (E : [0; 4; 2; 0; 2; 0; 2; 0; 2; 4; 4; 4; 0; 4; 4; 4] = [0; 4; 4; 4; 2; 0; 2; 0; 2; 4; 4; 4; 0; 4; 4; 4]); [|discriminate E].
    apply (H (mkUTP 1 1) (mkUTP 1 3) (flat zig)); vm_compute; reflexivity.
  - assert (E : [0; 0; 0; 0; 0; 0; 0; 0; 0; 0; 0; 4; 4; 4; 4; 0; 0; 0; 0; 0] = [0; 0; 0; 0; 0; 0; 0; 0; 0; 0; 0; 4; 4; 4; 4; 4; 4; 4; 4; 4]); [|discriminate E].
    apply (H (mkVegasP 1 2 2 5 6) (mkVegasP 9 2 2 5 6) (bulls updown)); vm_compute; reflexivity.
Qed.
Print Assumptions C100_refuted.
Example C100_hyp :
  run_all (N := EX) [@mkChosen _ nm_Kdj 2; @mkChosen _ nm_Macd (mkMacdP 2 (-2) 3); @mkChosen _ nm_Kdj 2] (flat [5; 6; 9]) =
  Ok [mkSideData "Kdj2" [Buy; Hold; Hold]; mkSideData "Macd2--2-3" [Buy; Hold; Hold]; mkSideData "Kdj2" [Buy; Hold; Hold]] /\
  Forall (fun c => In (chD c) (full_names EX)) [@mkChosen _ nm_Kdj 2; @mkChosen _ nm_Macd (mkMacdP 2 (-2) 3); @mkChosen _ nm_Kdj 2].
Proof.
  split; [vm_compute; reflexivity|]. repeat apply Forall_cons; try apply Forall_nil; cbn [chD]; unfold full_names; cbn [In]; tauto.
Qed.

(** ** C102 *)
(** what AnalysisSide returns holds no value but Buy, Sell and Hold ... *)
Theorem C102_values (N : Num) (I : Indicator (N := N)) (p : Param I) (kl : list Candle) (sides : list Side) (s : Side) :
  In I all_indicators -> sides_of I p kl = Ok sides -> In s sides -> s = Buy \/ s = Sell \/ s = Hold.
Proof.
  intros HI H Hs. pose proof (@sides_three N I p kl sides HI H) as G. rewrite Forall_forall in G. exact (G s Hs).
Qed.
Print Assumptions C102_values.
(** ... so printing the list gives BUY, SELL or HOLD for each of them, never UNKNOWN *)
Theorem C102_text (N : Num) (I : Indicator (N := N)) (p : Param I) (kl : list Candle) (sides : list Side) :
  In I all_indicators -> sides_of I p kl = Ok sides ->
  exists texts, sides_strings sides = Ok texts /\
    Forall2 (fun s t => s = Buy /\ t = "BUY" \/ s = Sell /\ t = "SELL" \/ s = Hold /\ t = "HOLD")%string sides texts.
Proof.
  intros HI H. exists (map side_string sides). split.
  - unfold sides_strings. rewrite make_len. cbn [bind].
    rewrite fill_loop0 with (f := fun i => side_string (nth i sides Buy)).
    + f_equal. unfold tab. rewrite <- map_map with (f := fun i => nth i sides Buy) (g := side_string).
      f_equal. exact (eq_sym (tab_of_list sides Buy)).
    + intros i Hi. rewrite (@get_nat _ sides i Buy) by lia. cbn [bind]. apply partial_set; auto.
  - pose proof (@sides_three N I p kl sides HI H) as G. clear - G.
    induction G as [|s l Hs G IH]; cbn [map]; constructor; [|exact IH].
    destruct Hs as [->|[->| ->]]; cbn; auto.
Qed.
Print Assumptions C102_text.
Example C102_hyp : sides_of I_Donchian 2 (flat [5; 6; 9; 1]) = Ok [Buy; Hold; Hold; Sell] /\
  sides_strings [Buy; Hold; Hold; Sell] = Ok ["BUY"; "HOLD"; "HOLD"; "SELL"]%string /\ side_string 1 = "UNKNOWN"%string.
Proof. repeat split; vm_compute; reflexivity. Qed.

(** ** C101 *)
(** the strategies of the program: Macd 12-9-26, Kdj 9, ... *)
Theorem C101_strategies (N : Num) :
  map (fun c => (iname (nmI (chD c)), name_of c)) (demo (N := N)) =
  [("trend.Macd", "Macd12-9-26"); ("trend.Kdj", "Kdj9"); ("oscillator.AbsolutePriceOscillator", "AbsolutePriceOscillator");
   ("trend.Cci", "CCI20-SMA20"); ("trend.Rsi", "Rsi14"); ("oscillator.AwesomeOscillator", "AwesomeOscillator");
   ("oscillator.ChaikinOscillator", "ChaikinOscillator3-10"); ("oscillator.IchimokuCloud", "IchimokuCloud20-60-120");
   ("oscillator.PercentagePriceOscillator", "PercentagePriceOscillator12-26-9");
   ("oscillator.StochasticOscillator", "StochasticOscillator14"); ("oscillator.WilliamsR", "WilliamsR14")]%string.
Proof. reflexivity. Qed.
Print Assumptions C101_strategies.

(** a signal on the terminal: BUY in green, SELL in red, HOLD plain *)
Definition esc (code word : string) : string := (String "027" ("[" ++ code ++ "m") ++ word ++ String "027" "[0m")%string.
Inductive shown : Side -> string -> Prop :=
  | green_buy : shown Buy (esc "32" "BUY")
  | red_sell : shown Sell (esc "31" "SELL")
  | plain_hold : shown Hold "HOLD".
(** what the report says about strategy [c] in the line of candle [i]: its name and
    the signal it gave for that candle *)
Definition says (N : Num) (kl : list Candle) (i : nat) (c : Chosen (N := N)) (text : string) : Prop :=
  exists sides s t, sides_at c kl = Ok sides /\ nth_error sides i = Some s /\ shown s t /\ text = (name_of c ++ ":" ++ t)%string.
Definition tabbed (l : list string) : string := String.concat (String "009" "") l.

Section Main.
Context {N : Num}.
Variable text_2f : @F N -> string.
Variable clock : Z -> string.
Let line (ds : list SideData) (kl : list (Candle (N := N))) (i : nat) : string :=
  ("[" ++ dec (Z.of_nat i + 1) ++ "]Time:" ++ clock (nth i (map (fun c => cTime c) kl) 0%Z) ++ tab_ ++ "Close:" ++
   text_2f (nth i (map (fun c => cClose c) kl) fzero) ++ tab_ ++ " " ++
   String.concat tab_ (map (fun d => sdName d ++ ":" ++ getColorSide (nth i (sdData d) Buy))%string ds) ++ newline)%string.
Lemma collect A B (f : A -> res B) (g : A -> B) (l : list A) :
  (forall x, In x l -> f x = Ok (g x)) -> range_ l (fun _ x acc => y <- f x ;; Ok (acc ++ [y])) [] = Ok (map g l).
Proof.
  intros H. unfold range_.
  rewrite (@for_nat0 _ (fun k => map g (firstn k l)) A l); [now rewrite firstn_all|reflexivity|].
  intros i Hi. destruct (nth_error l i) as [x|] eqn:E; [|apply nth_error_None in E; lia].
  rewrite (@get_nat _ l i x Hi), (nth_error_nth l i x E). cbn [bind].
  rewrite H by (eapply nth_error_In, E). cbn [bind]. f_equal.
  rewrite (firstn_S_nth l x Hi), map_app, (nth_error_nth l i x E). reflexivity.
Qed.
Lemma main_ok (kl : list Candle) ds : run_all demo kl = Ok ds -> Forall (fun d => length (sdData d) = length kl) ds ->
  main text_2f clock kl = Ok (tab (length kl) (line ds kl)).
Proof.
  intros Hr Hl. unfold main. rewrite Hr. cbn [bind]. unfold range_ at 1.
  rewrite (@for_nat0 _ (fun k => tab k (line ds kl)) _ kl); [reflexivity|reflexivity|].
  intros i Hi. destruct (nth_error kl i) as [v|] eqn:E; [|apply nth_error_None in E; lia].
  rewrite (@get_nat _ kl i v Hi), (nth_error_nth kl i v E). cbn [bind].
  assert (C : range_ ds (fun _ sideMessage messages => s <- get (sdData sideMessage) (Z.of_nat i) ;;
     Ok (messages ++ [(sdName sideMessage ++ ":" ++ getColorSide s)%string])) [] =
     Ok (map (fun d => sdName d ++ ":" ++ getColorSide (nth i (sdData d) Buy))%string ds)).
  { rewrite <- (@collect _ _ (fun d => s <- get (sdData d) (Z.of_nat i) ;; Ok (sdName d ++ ":" ++ getColorSide s)%string)).
    - unfold range_. apply for_ext. intros j st Hj. destruct (get ds j) as [d|]; cbn [bind]; [|reflexivity].
      destruct (get (sdData d) (Z.of_nat i)); reflexivity.
    - intros d Hd. rewrite Forall_forall in Hl. rewrite (@get_nat _ (sdData d) i Buy) by (rewrite (Hl d Hd); exact Hi). reflexivity. }
  rewrite C. cbn [bind]. rewrite tab_S. unfold line at 3.
  rewrite (nth_indep _ 0 (cTime v)), (nth_indep _ fzero (cClose v)) by (rewrite map_length; exact Hi).
  rewrite (map_nth (fun c => cTime c)), (map_nth (fun c => cClose c)), (nth_error_nth kl i v E). reflexivity.
Qed.
End Main.

Lemma demo_catalogue (N : Num) (c : Chosen (N := N)) : In c demo ->
  (In (nmI (chD c)) append_style \/ In (nmI (chD c)) make_style) /\ Sides (nmI (chD c)) <> None /\ forall k, counts (nmI (chD c)) k.
Proof.
  intros H. unfold demo in H. cbn [In] in H.
  repeat (destruct H as [<-|H]); try (destruct H); cbn [chD]; open_names; cbn [nmI];
    (split; [unfold append_style, make_style; cbn [In]; tauto|split; [discriminate|intros k X; discriminate X]]).
Qed.
Lemma demo_crash (N : Num) (kl : list Candle) (c : Chosen (N := N)) : In c demo ->
  (sides_at c kl = Panic <-> iname (nmI (chD c)) = "trend.Rsi"%string /\ length kl = 14%nat).
Proof.
  intros H. destruct (demo_catalogue H) as (HI & Hs & Hc).
  assert (HA : In (nmI (chD c)) all_indicators) by (unfold all_indicators; rewrite !in_app_iff; tauto).
  destruct (Sides (nmI (chD c))) as [f|] eqn:Ef; [|contradiction].
  unfold sides_at. rewrite (sides_iff HA (chP c) kl Ef (fun d Hd => @C40_rows_partial N _ (chP c) kl d HI (Hc _) Hd)).
  clear Hs Hc HI HA f Ef. unfold demo in H. cbn [In] in H. pose proof (len_nonneg kl) as Hn.
  repeat (destruct H as [<-|H]); try (destruct H); cbn [chD chP]; open_names; cbn [nmI].
  - rewrite (runs_iff (x_Macd kl _)). cbn; split; [tauto|intros [X _]; discriminate X].
  - rewrite (runs_iff (x_Kdj kl _)). cbn; split; [lia|intros [X _]; discriminate X].
  - rewrite (runs_iff (x_APO kl _)). cbn; split; [tauto|intros [X _]; discriminate X].
  - rewrite (runs_iff (x_Cci kl _)). cbn; split; [lia|intros [X _]; discriminate X].
  - rewrite (runs_iff (x_Rsi kl _)). cbn. unfold len. split; [|lia]. intros; split; [reflexivity|lia].
  - rewrite (runs_iff (x_AO kl _)). cbn; split; [tauto|intros [X _]; discriminate X].
  - rewrite (runs_iff (x_Chaikin kl _)). cbn; split; [tauto|intros [X _]; discriminate X].
  - rewrite (runs_iff (x_Ichimoku kl _)). cbn; split; [lia|intros [X _]; discriminate X].
  - rewrite (runs_iff (x_PPO kl _)). cbn; split; [tauto|intros [X _]; discriminate X].
  - rewrite (runs_iff (x_Stoch kl _)). cbn; split; [lia|intros [X _]; discriminate X].
  - rewrite (runs_iff (x_Williams kl _)). cbn; split; [lia|intros [X _]; discriminate X].
Qed.
Lemma demo_lengths (N : Num) (kl : list Candle) ds : run_all (N := N) demo kl = Ok ds ->
  Forall2 (fun c d => In c demo /\ sdName d = name_of c /\ sides_at c kl = Ok (sdData d) /\ length (sdData d) = length kl) demo ds.
Proof.
  intros H. apply run_all_iff in H.
  assert (G : forall l, incl l demo -> forall ds, Forall2 (fun c d => sides_at c kl = Ok (sdData d) /\ sdName d = name_of c) l ds ->
    Forall2 (fun c d => In c demo /\ sdName d = name_of c /\ sides_at c kl = Ok (sdData d) /\ length (sdData d) = length kl) l ds).
  { intros l Hl ds0 F. induction F as [|c d l ds0 [H1 H2] F IH]; constructor.
    - assert (Hc : In c demo) by (apply Hl; now left). destruct (demo_catalogue Hc) as (HI & _ & Hk).
      repeat split; auto. eapply C40_sides; [exact HI|apply Hk|exact H1].
    - apply IH. intros x Hx. apply Hl. now right. }
  apply G; [apply incl_refl|exact H].
Qed.

(** the program crashes on exactly 14 candles (Rsi's defect) and on no other number *)
Theorem C101_crash (N : Num) (text_2f : F -> string) (clock : Z -> string) (kl : list Candle) :
  main (N := N) text_2f clock kl = Panic <-> length kl = 14%nat.
Proof.
  split.
  - intros H. destruct (Nat.eq_dec (length kl) 14) as [|Hn]; [assumption|exfalso].
    assert (G : forall l, incl l (demo (N := N)) -> exists ds, run_all l kl = Ok ds).
    { intros l Hl. induction l as [|c l IH].
      - exists []. apply run_all_iff. constructor.
      - destruct IH as [ds Hd]; [intros x Hx; apply Hl; now right|].
        destruct (sides_at c kl) as [s|] eqn:E.
        + exists (mkSideData (name_of c) s :: ds). apply run_all_iff. constructor; [auto|]. now apply run_all_iff.
        + apply demo_crash in E; [tauto|]. apply Hl. now left. }
    destruct (G demo (incl_refl _)) as [ds Hd]. rewrite (@main_ok N text_2f clock kl ds Hd) in H; [discriminate|].
    pose proof (demo_lengths _ Hd) as F. clear - F. induction F; constructor; tauto.
  - intros Hn. unfold main. destruct (run_all demo kl) as [ds|] eqn:E; [exfalso|reflexivity].
    apply demo_lengths in E.
    destruct (@F2_pick _ _ _ _ _ (@mkChosen N nm_Rsi 14) E) as (_ & d & _ & _ & Hc & _ & Hs & _); [unfold demo; cbn [In]; tauto|].
    assert (X : sides_at (@mkChosen N nm_Rsi 14) kl = Panic) by (apply demo_crash; [exact Hc|split; [reflexivity|exact Hn]]).
    congruence.
Qed.
Print Assumptions C101_crash.

(** otherwise it prints one line per candle, in order: the number of the candle from
    1, its time, its close and what each of the eleven strategies says about it *)
Theorem C101_lines (N : Num) (text_2f : F -> string) (clock : Z -> string) (kl : list Candle) (out : list string) :
  main (N := N) text_2f clock kl = Ok out ->
  length out = length kl /\
  forall i v, nth_error kl i = Some v ->
    exists messages, Forall2 (says kl i) demo messages /\
      nth_error out i = Some ("[" ++ dec (Z.of_nat i + 1) ++ "]Time:" ++ clock (cTime v) ++ String "009" "Close:" ++ text_2f (cClose v)
        ++ String "009" " " ++ tabbed messages ++ String "010" "")%string.
Proof.
  intros H. destruct (run_all demo kl) as [ds|] eqn:E; [|unfold main in H; rewrite E in H; discriminate H].
  pose proof (demo_lengths _ E) as F.
  rewrite (@main_ok N text_2f clock kl ds E) in H by (clear - F; induction F; constructor; tauto). injection H as <-.
  split; [apply tab_length|]. intros i v Hv.
  assert (Hi : (i < length kl)%nat) by (apply nth_error_Some; congruence).
  exists (map (fun d => sdName d ++ ":" ++ getColorSide (nth i (sdData d) Buy))%string ds). split.
  - clear - F Hi. assert (HA : forall c, In c (demo (N := N)) -> In (nmI (chD c)) all_indicators).
    { intros c Hc. destruct (demo_catalogue Hc) as (HI & _). unfold all_indicators. rewrite !in_app_iff. tauto. }
    induction F as [|c d l ds (Hc & Hn & Hs & Hl) F IH]; cbn [map]; constructor; [|exact IH].
    assert (Hd : nth_error (sdData d) i = Some (nth i (sdData d) Buy)) by (apply nth_error_nth'; lia).
    exists (sdData d), (nth i (sdData d) Buy), (getColorSide (nth i (sdData d) Buy)).
    repeat split; auto; [|now rewrite Hn].
    destruct (@C102_values N _ (chP c) kl (sdData d) (nth i (sdData d) Buy) (HA c Hc) Hs (nth_error_In _ _ Hd)) as [->|[->| ->]]; constructor.
  - rewrite tab_nth_error by exact Hi. f_equal.
    rewrite (nth_indep _ 0 (cTime v)), (nth_indep _ fzero (cClose v)) by (rewrite map_length; exact Hi).
    rewrite (map_nth (fun c => cTime c)), (map_nth (fun c => cClose c)), (nth_error_nth kl i v Hv). reflexivity.
Qed.
Print Assumptions C101_lines.

(** lines already printed do not change when candles are added *)
Theorem C101_append_only (N : Num) (text_2f : F -> string) (clock : Z -> string) (kl later : list Candle) (out out' : list string) :
  main (N := N) text_2f clock kl = Ok out -> main (N := N) text_2f clock (kl ++ later) = Ok out' -> firstn (length kl) out' = out.
Proof.
  intros H H'. destruct (C101_lines _ _ _ H) as [L P], (C101_lines _ _ _ H') as [L' P'].
  rewrite app_length in L'.
  apply list_ext. intros i. destruct (Nat.lt_ge_cases i (length kl)) as [Hi|Hi].
  - rewrite nth_error_firstn_lt by exact Hi.
    destruct (nth_error kl i) as [v|] eqn:Ev; [|apply nth_error_None in Ev; lia].
    destruct (P i v Ev) as (ms & F & ->). destruct (P' i v) as (ms' & F' & ->); [now rewrite nth_error_app1 by exact Hi|].
    assert (ms' = ms); [|congruence].
    assert (HI : incl (demo (N := N)) (demo (N := N))) by apply incl_refl. revert HI F F'. revert ms ms'.
    generalize (demo (N := N)) at 1 3 4 as l. induction l as [|c l IH]; intros ms ms' Hl F F'; inversion F; inversion F'; subst; [reflexivity|].
    f_equal; [|apply IH; auto; intros x Hx; apply Hl; now right].
    match goal with X : says kl i c _, Y : says (kl ++ later) i c _ |- _ =>
      destruct X as (ss & s & t & S1 & S2 & S3 & ->), Y as (ss' & s' & t' & S1' & S2' & S3' & ->) end.
    destruct (demo_catalogue (Hl c (or_introl eq_refl))) as (HA & _ & Hk).
    pose proof (@C39_sides N _ (chP c) kl later ss ss' HA (Hk _) S1 S1') as G.
    assert (s' = s). { rewrite <- G in S2. rewrite nth_error_firstn_lt in S2 by exact Hi. congruence. }
    subst s'. assert (t' = t) by (inversion S3; subst; inversion S3'; reflexivity). now subst.
  - transitivity (@None string); [|symmetry]; apply nth_error_None; [rewrite firstn_length|]; lia.
Qed.
Print Assumptions C101_append_only.
(** two candles: on the second, only IchimokuCloud does not hold; 13, 14 and 15 candles *)
Example C101_hyp :
  let report l := main (N := EX) (fun _ => "6.00"%string) (fun t => dec t) (flat l) in
  let crash (r : res (list string)) := match r with Panic => true | Ok _ => false end in
  rmap (fun out => nth 1 out ""%string) (report [5; 6]) = Ok ("[2]Time:60" ++ String "009" "Close:6.00" ++ String "009" " " ++
    tabbed ["Macd12-9-26:HOLD"; "Kdj9:HOLD"; "AbsolutePriceOscillator:HOLD"; "CCI20-SMA20:HOLD"; "Rsi14:HOLD";
      "AwesomeOscillator:HOLD"; "ChaikinOscillator3-10:HOLD"; "IchimokuCloud20-60-120:" ++ esc "32" "BUY";
      "PercentagePriceOscillator12-26-9:HOLD"; "StochasticOscillator14:HOLD"; "WilliamsR14:HOLD"] ++ String "010" "")%string /\
  map (fun n => crash (report (repeat 5 n))) [13; 14; 15]%nat = [false; true; false].
Proof. split; vm_compute; reflexivity. Qed.
