(** * IndForms4: closed forms of the indicators built on moving maxima and minima. *)
From Verif Require Import Base Num Order Containers Ta TaTools TaOrd TaElem TaAvg Sides Klines IndBase IndTrend IndChannel
  IndVolume IndOsc IndTools IndForms IndForms2 SpecTa.
Set Implicit Arguments.

Section Forms.
Context {N : Num}.
Hypothesis O : OrdLaws N.
Local Notation C kl := (fun i => cClose (cn kl i)).
Local Notation H kl := (fun i => cHigh (cn kl i)).
Local Notation L kl := (fun i => cLow (cn kl i)).
Local Notation rows kl g := (Ok (tab (length kl) (fun i => mkRow (tm kl i) (g i)))).

(** [u i] is a largest (smallest) [g] of the window of [p] candles ending at [i] *)
Definition tops (g : Candle -> F) (p : Z) (kl : list Candle) (u : nat -> F) : Prop :=
  forall i, (i < length kl)%nat -> max_of (u i) (window (map g kl) i (Z.to_nat p)).
Definition bottoms (g : Candle -> F) (p : Z) (kl : list Candle) (u : nat -> F) : Prop :=
  forall i, (i < length kl)%nat -> min_of (u i) (window (map g kl) i (Z.to_nat p)).
Lemma Max_K (g : Candle -> F) p kl : 1 <= p -> no_nan (map g kl) -> exists u, Max p (tab (length kl) (fun i => g (cn kl i))) = Ok (tab (length kl) u) /\ tops g p kl u.
Proof.
  intros Hp Hn. destruct (@Max_T N O p (length kl) (fun i => g (cn kl i)) Hp) as (u & E & Hu); [now rewrite <- cmap|].
  exists u. split; [exact E|]. intros i Hi. rewrite cmap. now apply Hu.
Qed.
Lemma Min_K (g : Candle -> F) p kl : 1 <= p -> no_nan (map g kl) -> exists u, Min p (tab (length kl) (fun i => g (cn kl i))) = Ok (tab (length kl) u) /\ bottoms g p kl u.
Proof.
  intros Hp Hn. destruct (@Min_T N O p (length kl) (fun i => g (cn kl i)) Hp) as (u & E & Hu); [now rewrite <- cmap|].
  exists u. split; [exact E|]. intros i Hi. rewrite cmap. now apply Hu.
Qed.
Lemma Donchian_T p kl : 1 <= p -> no_nan (map (fun c => cClose c) kl) ->
  exists u l, tops (fun c => cClose c) p kl u /\ bottoms (fun c => cClose c) p kl l /\
  rows_of I_Donchian p kl = rows kl (fun i => mkBand (u i) ((u i +~ l i) *~ (ofZ 1 /~ ofZ 2)) (l i)).
Proof.
  intros Hp Hn. destruct (Max_K (fun c => cClose c) kl Hp Hn) as (u & Eu & Hu), (Min_K (fun c => cClose c) kl Hp Hn) as (l & El & Hl).
  exists u, l. split; [exact Hu|]. split; [exact Hl|]. T_start I_Donchian donchian_calc. rewrite Eu, El. cbn [bind]. T_steps.
  T_append (fun i => mkBand (u i) ((u i +~ l i) *~ (ofZ 1 /~ ofZ 2)) (l i)).
Qed.
Definition ddF (c u : nat -> F) i := div_clean (c i +~ u i *~ ofZ (-1)) (u i) *~ ofZ 100.
Lemma Ulcer_T p kl : 1 <= p -> no_nan (map (fun c => cClose c) kl) ->
  exists u, tops (fun c => cClose c) p kl u /\
  rows_of I_Ulcer p kl = rows kl (fun i => fsqrt (emaF p (fun j => ddF (C kl) u j *~ ddF (C kl) u j) i)).
Proof.
  intros Hp Hn. destruct (Max_K (fun c => cClose c) kl Hp Hn) as (u & Eu & Hu).
  exists u. split; [exact Hu|]. T_start I_Ulcer ulcer_calc. rewrite Eu. cbn [bind]. T_steps.
  T_append (fun i => fsqrt (emaF p (fun j => ddF (C kl) u j *~ ddF (C kl) u j) i)).
Qed.
Definition wilF (c h l : nat -> F) i := (h i -~ c i) /~ (h i -~ l i) *~ ofZ (-100).
Lemma Williams_T p kl : 1 <= p -> no_nan (map (fun c => cHigh c) kl) -> no_nan (map (fun c => cLow c) kl) ->
  exists h l, tops (fun c => cHigh c) p kl h /\ bottoms (fun c => cLow c) p kl l /\
  rows_of I_Williams p kl = rows kl (wilF (C kl) h l).
Proof.
  intros Hp Hh Hl. destruct (Max_K (fun c => cHigh c) kl Hp Hh) as (h & Eh & Hh'), (Min_K (fun c => cLow c) kl Hp Hl) as (l & El & Hl').
  exists h, l. split; [exact Hh'|]. split; [exact Hl'|]. T_start I_Williams williams_calc. unfold williams. rewrite Eh, El. cbn [bind].
  rewrite len_tab, make_tab. cbn [bind]. rewrite (@fill_T _ fzero (wilF (C kl) h l)).
  - cbn [bind]. T_append (wilF (C kl) h l).
  - intros i Hi. rewrite !get_tab by exact Hi. cbn [bind]. now apply partial_set.
Qed.
Definition stoK (c h l : nat -> F) i := div_clean (c i +~ l i *~ ofZ (-1)) (h i +~ l i *~ ofZ (-1)) *~ ofZ 100.
Lemma Stoch_T p kl : 1 <= p -> no_nan (map (fun c => cHigh c) kl) -> no_nan (map (fun c => cLow c) kl) ->
  exists h l, tops (fun c => cHigh c) p kl h /\ bottoms (fun c => cLow c) p kl l /\
  rows_of I_Stoch p kl = rows kl (fun i => mkKD (stoK (C kl) h l i) (smaF 3 (stoK (C kl) h l) i)).
Proof.
  intros Hp Hh Hl. destruct (Max_K (fun c => cHigh c) kl Hp Hh) as (h & Eh & Hh'), (Min_K (fun c => cLow c) kl Hp Hl) as (l & El & Hl').
  exists h, l. split; [exact Hh'|]. split; [exact Hl'|]. T_start I_Stoch stoch_calc. unfold Stochastic. rewrite Eh, El. cbn [bind]. T_steps.
  T_append (fun i => mkKD (stoK (C kl) h l i) (smaF 3 (stoK (C kl) h l) i)).
Qed.
End Forms.
