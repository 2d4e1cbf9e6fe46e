(** * CrashSides: once the rows exist no AnalysisSide method can crash (proofs of C90). *)
From Verif Require Import Base Num Order Containers Ta TaTools TaElem TaAvg TaDev TaReg TaRange TaOrd SpecTa
  Sides Klines KlineProofs3 IndBase IndTrend IndChannel IndVolume IndOsc IndAll IndTools IndForms IndForms2 IndForms3 IndForms4 IndForms5 IndSides Crash CrashInd.
Set Implicit Arguments.
Open Scope Z_scope.

Section S.
Context {N : Num}.
Variable kl : list Candle.
Local Notation FINE r := (exists s : list Side, r = Ok s).

Lemma fine A (r : res A) (P : A -> Prop) : runs r P False -> exists s, r = Ok s.
Proof. intros [[[] _]|(_ & a & E & _)]. eauto. Qed.
Lemma y_crossing A (d : list (row A)) b s : length d = length kl -> FINE (crossing kl d b s).
Proof. intros L. unfold crossing. eapply fine, r_analyse; [exact L|reflexivity|lia|]. eauto. Qed.
Lemma y_price A (d : list (row A)) b s : length d = length kl -> FINE (price_crossing kl d b s).
Proof.
  intros L. unfold price_crossing. rewrite OHLC_T. cbn [bind oClose OH]. eapply fine, r_analyse; [exact L|reflexivity|lia|].
  intros i v p Hi. got.
Qed.
Lemma y_ichi p d : length d = length kl -> 1 <= icConv p \/ length kl = 0%nat -> FINE (ichi_sides p kl d).
Proof.
  intros L H. unfold ichi_sides. rewrite OHLC_T. cbn [bind oClose OH]. destruct H as [H|H].
  - eapply fine, r_analyse; [exact L|reflexivity|exact H|]. intros i v w Hi. got.
  - rewrite H in L. apply length_zero_iff_nil in L as ->. unfold analyse, range_. rewrite make_len. cbn [bind]. rewrite for_empty by (cbn; lia). eauto.
Qed.
Lemma y_proj d : length d = length kl -> FINE (proj_sides kl d).
Proof. intros L. unfold proj_sides. eapply fine, r_analyse; [exact L|reflexivity|lia|]. eauto. Qed.
Lemma y_begin d : FINE (begin_sides d).
Proof. unfold begin_sides. eapply fine, r_analyse; [reflexivity|reflexivity|lia|]. eauto. Qed.
Lemma y_utbot d : FINE (utbot_sides d).
Proof. unfold utbot_sides. eapply fine, r_analyse; [reflexivity|reflexivity|lia|]. eauto. Qed.
Lemma y_cross (d : list (row VegasV)) i : 11 <= i <= len d -> exists r, vegas_cross d i = Ok r.
Proof.
  intros Hi. unfold vegas_cross. match goal with |- exists a, for_ ?lo ?hi ?b ?s = _ => destruct (@for_inv _ (fun _ _ => True) lo hi b s) as (r & E & Q) end.
  - lia.
  - exact I.
  - intros k [t e] Hk _. destruct (@get_in_range _ d k) as [v ->]; [lia|]. cbn [bind]. destruct (@get_in_range _ d (k - 1)) as [w ->]; [lia|]. cbn [bind]. eauto.
  - eauto.
Qed.
Lemma y_vegas d : length d = length kl -> FINE (vegas_sides kl d).
Proof.
  intros L. unfold vegas_sides. rewrite OHLC_T. cbn [bind oBull OH]. rewrite make_len. cbn [bind].
  match goal with |- exists a, for_ ?lo ?hi ?b ?s = _ => destruct (@for_inv _ (fun _ (r : list Side) => length r = length kl) lo hi b s) as (r & E & Q) end.
  - apply len_nonneg.
  - now rewrite repeat_length, tab_length.
  - intros i r Hi Lr. destruct (i <? 1); [eauto|]. destruct (@get_in_range _ d i Hi) as [v ->]. cbn [bind].
    destruct (Z.ltb_spec (i - 10 - 1) 0); [eauto|]. destruct (@y_cross d i) as [[t e] ->]; [lia|]. cbn [bind]. unfold len in Hi.
    match goal with |- context [get (tab ?m ?f) i] => destruct (r_get (tab m f) (i := i) (tab_length _ _) ltac:(lia)) as [b ->] end. cbn [bind].
    rewrite set_ok by (unfold len; lia). eexists. split; [reflexivity|]. now rewrite upd_length.
  - eauto.
Qed.
Lemma y_xo d : FINE (traderxo_sides d).
Proof.
  unfold traderxo_sides. rewrite !make_len. cbn [bind].
  match goal with |- exists a, bind (for_ ?lo ?hi ?b ?s) _ = _ =>
    destruct (@for_inv _ (fun _ (r : XOS) => length (xbuys r) = length d /\ length (xsells r) = length d /\ length (xsides r) = length d) lo hi b s) as (r & E & Q) end.
  - apply len_nonneg.
  - cbn. rewrite !repeat_length. auto.
  - intros i [cb cs bu se si] Hi (L1 & L2 & L3). cbn [xcb xcs xbuys xsells xsides] in *. unfold len in Hi.
    destruct (Z.ltb_spec i 1).
    + rewrite set_ok by (unfold len; lia). cbn [bind]. eexists. split; [reflexivity|]. cbn. rewrite upd_length. auto.
    + destruct (@get_in_range _ d i Hi) as [v ->]. cbn [bind]. do 2 (try rewrite set_ok by (unfold len; lia); cbn [bind]).
      match goal with |- context [get ?l (i - 1)] => destruct (@r_get _ l (length d) (i - 1)) as [x ->]; [now rewrite upd_length|lia|] end. cbn [bind].
      match goal with |- context [get ?l (i - 1)] => destruct (@r_get _ l (length d) (i - 1)) as [z ->]; [now rewrite upd_length|lia|] end. cbn [bind].
      rewrite set_ok by (unfold len; lia). cbn [bind]. eexists. split; [reflexivity|]. cbn. rewrite !upd_length. auto.
  - rewrite E. cbn [bind]. eauto.
Qed.
Lemma y_cam p d : length d = length kl -> FINE (cam_sides p kl d).
Proof.
  intros L. unfold cam_sides. rewrite make_len. cbn [bind].
  destruct (x_Camarilla (camDaily p) p) as [[[] _]|(_ & days & E & _)].
  change (cam_calc0 (camEMA p) (camDaily p) = Ok days) in E. rewrite E. cbn [bind]. rewrite OHLC_T. cbn [bind oClose oOpen OH]. unfold range_.
  match goal with |- exists a, bind (for_ ?lo ?hi ?b ?s) _ = _ =>
    destruct (@for_inv _ (fun _ (r : option CamV * list Side) => length (snd r) = length kl) lo hi b s) as ([r1 r] & E' & Q) end.
  - apply len_nonneg.
  - cbn [snd]. apply repeat_length.
  - intros i [sec si] Hi Ls. cbn [snd] in *. destruct (@get_in_range _ d i Hi) as [v ->]. cbn [bind]. unfold len in Hi.
    match goal with |- context [get (tab ?m ?f) i] => destruct (r_get (tab m f) (i := i) (tab_length _ _) ltac:(lia)) as [b ->] end. cbn [bind].
    match goal with |- context [get (tab ?m ?f) i] => destruct (r_get (tab m f) (i := i) (tab_length _ _) ltac:(lia)) as [b' ->] end. cbn [bind].
    rewrite set_ok by (unfold len; lia). cbn [bind]. eexists. split; [reflexivity|]. cbn [snd]. now rewrite upd_length.
  - rewrite E'. cbn [bind]. eauto.
Qed.
End S.

Section Cat.
Context {N : Num}.
Implicit Types I : Indicator (N := N).
Lemma sides_total I : In I all_indicators -> forall f p kl d, Sides I = Some f -> rows_of I p kl = Ok d -> length d = length kl ->
  exists s, f p kl d = Ok s.
Proof.
  intros H. unfold all_indicators, append_style, make_style in H. cbn [app In] in H.
  repeat (destruct H as [<-|H]); try (destruct H); intros f p kl d Hs HR L; cbn in Hs; try discriminate Hs; injection Hs as <-;
    try first [now apply y_crossing | now apply y_price | now apply y_proj | apply y_begin | apply y_utbot | now apply y_vegas | apply y_xo | now apply y_cam].
  apply y_ichi; [exact L|]. pose proof (runs_iff (x_Ichimoku kl p)) as X. rewrite HR in X. cbn [Param I_Ichimoku] in p.
  destruct (Nat.eq_dec (length kl) 0); [now right|left]. destruct (Z_le_gt_dec 1 (icConv p)) as [|Hc]; [assumption|].
  assert (F : @Ok (list (row (Val I_Ichimoku))) d = Panic); [apply X; unfold len; lia|discriminate F].
Qed.
Lemma sides_iff I : In I all_indicators -> forall f p kl, Sides I = Some f -> (forall d, rows_of I p kl = Ok d -> length d = length kl) ->
  (sides_of I p kl = Panic <-> rows_of I p kl = Panic).
Proof.
  intros HI f p kl Hs HL. unfold sides_of, AnalysisSide. rewrite Hs. fold (rows_of I p kl).
  destruct (rows_of I p kl) as [d|] eqn:E; cbn [bind rmap]; [|tauto].
  destruct (@sides_total I HI f p kl d Hs E (HL d eq_refl)) as [s ->]. cbn. split; discriminate.
Qed.
End Cat.
