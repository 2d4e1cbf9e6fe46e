(** * ReportProofs: decimal numbers in names, RunStrategies on fresh objects, main.go. *)
From Coq Require Import String Ascii DecimalString Decimal DecimalZ.
From Verif Require Import Base Num Sides Klines SpecKlines KlineProofs1 TaTools
  IndBase IndTrend IndChannel IndVolume IndOsc IndAll Report.
Set Implicit Arguments.

(** ** numbers *)
Definition digit (c : ascii) : bool := (48 <=? nat_of_ascii c)%nat && (nat_of_ascii c <=? 57)%nat.
Fixpoint digits (s : string) : bool := match s with EmptyString => true | String c s => digit c && digits s end.
(** does not begin with a digit *)
Definition stops (s : string) : bool := match s with EmptyString => true | String c _ => negb (digit c) end.

Lemma digits_uint u : digits (NilEmpty.string_of_uint u) = true.
Proof. induction u; cbn [NilEmpty.string_of_uint digits]; [reflexivity|..]; rewrite IHu; reflexivity. Qed.
Lemma digits_split s s' r r' : digits s = true -> digits s' = true -> stops r = true -> stops r' = true ->
  (s ++ r = s' ++ r')%string -> s = s' /\ r = r'.
Proof.
  revert s'. induction s as [|c s IH]; intros [|c' s'] Hs Hs' Hr Hr' E; cbn [append] in E.
  - auto.
  - subst r. cbn [stops] in Hr. cbn [digits] in Hs'. apply andb_true_iff in Hs' as [Hc _]. rewrite Hc in Hr. discriminate.
  - subst r'. cbn [stops] in Hr'. cbn [digits] in Hs. apply andb_true_iff in Hs as [Hc _]. rewrite Hc in Hr'. discriminate.
  - injection E as -> E. cbn [digits] in Hs, Hs'. apply andb_true_iff in Hs as [_ Hs]. apply andb_true_iff in Hs' as [_ Hs'].
    destruct (IH s' Hs Hs' Hr Hr' E) as [-> ->]. auto.
Qed.
(** a number is its sign and its digits, at least one *)
Lemma dec_shape z : exists (neg : bool) c d, digit c = true /\ digits d = true /\
  dec z = ((if neg then "-" else "") ++ String c d)%string.
Proof.
  assert (H : forall u, exists c d, digit c = true /\ digits d = true /\ NilZero.string_of_uint u = String c d).
  { intros u. destruct u; cbn [NilZero.string_of_uint NilEmpty.string_of_uint];
      first [ now exists "0"%char, ""%string | eexists _, _; split; [|split; [apply digits_uint|reflexivity]]; reflexivity ]. }
  unfold dec. destruct (Z.to_int z) as [u|u]; destruct (H u) as (c & d & Hc & Hd & E); cbn [NilZero.string_of_int]; rewrite E.
  - exists false, c, d. auto.
  - exists true, c, d. auto.
Qed.
Lemma dec_split z z' r r' : stops r = true -> stops r' = true -> (dec z ++ r = dec z' ++ r')%string -> dec z = dec z' /\ r = r'.
Proof.
  intros Hr Hr' E. destruct (dec_shape z) as (n & c & d & Hc & Hd & Ez), (dec_shape z') as (n' & c' & d' & Hc' & Hd' & Ez').
  rewrite Ez, Ez' in *.
  assert (G : forall c d, digit c = true -> digits d = true -> digits (String c d) = true) by (intros ? ? A B; cbn [digits]; now rewrite A, B).
  destruct n, n'; cbn [append] in E.
  - injection E as E1' E2'. assert (E' : String c (d ++ r) = String c' (d' ++ r')) by congruence. destruct (@digits_split (String c d) (String c' d') r r' (G _ _ Hc Hd) (G _ _ Hc' Hd') Hr Hr') as [E1 ->].
    + cbn [append]. exact E'.
    + cbn [append]. now rewrite E1.
  - injection E as E0 _. subst c'. discriminate Hc'.
  - injection E as E0 _. subst c. discriminate Hc.
  - destruct (@digits_split (String c d) (String c' d') r r' (G _ _ Hc Hd) (G _ _ Hc' Hd') Hr Hr' E) as [E1 ->].
    cbn [append]. now rewrite E1.
Qed.
Lemma dec_inj z z' : dec z = dec z' -> z = z'.
Proof.
  unfold dec. intros E. rewrite <- (of_to z), <- (of_to z'). f_equal.
  assert (G : forall z, Z.to_int z <> Pos Nil /\ Z.to_int z <> Neg Nil).
  { intros x. split; intros H; pose proof (to_of (Z.to_int x)) as K; rewrite of_to, H in K; discriminate K. }
  apply (f_equal NilZero.int_of_string) in E. rewrite !NilZero.isi in E by apply G. now injection E.
Qed.
Lemma append_nil s : (s ++ "")%string = s.
Proof. induction s as [|c s IH]; cbn [append]; [reflexivity|now rewrite IH]. Qed.
Lemma dec_dash z z' r r' : (dec z ++ "-" ++ r = dec z' ++ "-" ++ r')%string <-> z = z' /\ r = r'.
Proof.
  split.
  - intros E. apply dec_split in E as [E1 E2]; [|reflexivity|reflexivity]. split; [now apply dec_inj|].
    cbn [append] in E2. now injection E2.
  - now intros [-> ->].
Qed.
Lemma dec_iff z z' : dec z = dec z' <-> z = z'.
Proof. split; [apply dec_inj|congruence]. Qed.
Lemma append_inj (w s s' : string) : (w ++ s = w ++ s')%string <-> s = s'.
Proof.
  split; [|congruence]. induction w as [|c w IH]; cbn [append]; [auto|]. intros E. injection E as E. auto.
Qed.

(** ** words *)
Definition letter (c : ascii) : bool :=
  let n := nat_of_ascii c in ((65 <=? n)%nat && (n <=? 90)%nat) || ((97 <=? n)%nat && (n <=? 122)%nat).
Fixpoint letters (s : string) : string :=
  match s with EmptyString => EmptyString | String c s => if letter c then String c (letters s) else EmptyString end.
Lemma digit_letter c : digit c = true -> letter c = false.
Proof.
  unfold digit, letter. intros H. apply andb_true_iff in H as [H1 H2]. apply Nat.leb_le in H1, H2.
  apply orb_false_iff; split; apply andb_false_iff; left; apply Nat.leb_gt; lia.
Qed.
Lemma letters_dec z r : letters (dec z ++ r) = ""%string.
Proof.
  destruct (dec_shape z) as (n & c & d & Hc & _ & ->). destruct n; cbn [append letters]; [reflexivity|].
  now rewrite (digit_letter _ Hc).
Qed.
Lemma letters_dec1 z : letters (dec z) = ""%string.
Proof. rewrite <- (append_nil (dec z)). apply letters_dec. Qed.
Lemma dashed_cons z y l : dashed (z :: y :: l) = (dec z ++ "-" ++ dashed (y :: l))%string.
Proof. reflexivity. Qed.
Lemma dashed_one z : dashed [z] = dec z.
Proof. reflexivity. Qed.
Lemma letters_dashed z l : letters (dashed (z :: l)) = ""%string.
Proof. destruct l; [apply letters_dec1|]. rewrite dashed_cons. apply letters_dec. Qed.

(** ** RunStrategies on fresh objects *)
Section Run.
Context {N : Num}.
Lemma called_fresh (kl : list Candle) (cs : list Chosen) w w' ds :
  called_in_order (map (strategy kl) cs) w w' ds <->
  w = w' /\ Forall2 (fun c d => sides_at c kl = Ok (sdData d) /\ sdName d = name_of c) cs ds.
Proof.
  revert w w' ds. induction cs as [|c cs IH]; intros w w' ds; cbn [map].
  - split; [intros H; inversion H; auto|]. intros [-> H]. inversion H. constructor.
  - split.
    + intros H. inversion H as [|? ? ? w1 ? d ds' Hs Hc]; subst. unfold strategy in Hs.
      destruct (sides_at c kl) as [s|] eqn:E; cbn [bind] in Hs; [|discriminate]. injection Hs as <- <-.
      apply IH in Hc as [-> Hc]. split; [reflexivity|]. constructor; [|exact Hc]. auto.
    + intros [-> H]. inversion H as [|? d ? ds' [Hs Hn] Hc]; subst. destruct d as [nm dt]. cbn [sdName sdData] in *. subst nm.
      apply one_call with w'; [|apply IH; auto].
      unfold strategy. rewrite Hs. reflexivity.
Qed.
Lemma run_all_iff (cs : list Chosen) (kl : list Candle) ds :
  run_all cs kl = Ok ds <-> Forall2 (fun c d => sides_at c kl = Ok (sdData d) /\ sdName d = name_of c) cs ds.
Proof.
  unfold run_all. split.
  - intros H. destruct (RunStrategies (map (strategy kl) cs) tt) as [[w' d]|] eqn:E; cbn [rmap bind snd] in H; [|discriminate].
    injection H as <-. apply RunStrategies_spec, called_fresh in E. apply E.
  - intros H. assert (E : RunStrategies (map (strategy kl) cs) tt = Ok (tt, ds)) by (apply RunStrategies_spec, called_fresh; auto).
    now rewrite E.
Qed.

(** ** sides are Buy, Sell or Hold *)
Definition three (s : Side) : Prop := s = Buy \/ s = Sell \/ s = Hold.
Lemma three_decide b s : three (decide b s).
Proof. unfold three, decide. destruct b, s; auto. Qed.
Lemma set_three l i s l' : Forall three l -> three s -> set l i s = Ok l' -> Forall three l'.
Proof.
  intros Hl Hs H. unfold set in H. destruct ((0 <=? i) && (i <? len l)); [|discriminate]. injection H as <-.
  revert Hl. generalize (Z.to_nat i). induction l as [|x l IH]; intros [|k] Hl; cbn [upd]; try assumption;
    inversion Hl; constructor; auto.
Qed.
Lemma make_three n l : make Buy n = Ok l -> Forall three l.
Proof.
  unfold make. destruct (n <? 0); [discriminate|]. intros H. injection H as <-.
  induction (Z.to_nat n); cbn [repeat]; constructor; [now left|assumption].
Qed.
Lemma for_three lo hi (b : Z -> list Side -> res (list Side)) l l' :
  (forall i x x', Forall three x -> b i x = Ok x' -> Forall three x') -> Forall three l ->
  for_ lo hi b l = Ok l' -> Forall three l'.
Proof.
  intros Hb Hl H. unfold for_ in H. revert H. generalize (Z.to_nat (hi - lo)) as n. intros n H. revert lo l Hl H.
  induction n as [|n IH]; intros lo l Hl H; cbn [loop] in H; [now injection H as <-|].
  apply bind_ok in H as (x & Hx & H). eapply IH; [|exact H]. eapply Hb; eassumption.
Qed.
Lemma for_three2 S lo hi (b : Z -> S * list Side -> res (S * list Side)) l l' :
  (forall i x x', Forall three (snd x) -> b i x = Ok x' -> Forall three (snd x')) -> Forall three (snd l) ->
  for_ lo hi b l = Ok l' -> Forall three (snd l').
Proof.
  intros Hb Hl H. unfold for_ in H. revert H. generalize (Z.to_nat (hi - lo)) as n. intros n H. revert lo l Hl H.
  induction n as [|n IH]; intros lo l Hl H; cbn [loop] in H; [now injection H as <-|].
  apply bind_ok in H as (x & Hx & H). eapply IH; [|exact H]. eapply Hb; eassumption.
Qed.
Lemma for_three3 S (f : S -> list Side) lo hi (b : Z -> S -> res S) l l' :
  (forall i x x', Forall three (f x) -> b i x = Ok x' -> Forall three (f x')) -> Forall three (f l) ->
  for_ lo hi b l = Ok l' -> Forall three (f l').
Proof.
  intros Hb Hl H. unfold for_ in H. revert H. generalize (Z.to_nat (hi - lo)) as n. intros n H. revert lo l Hl H.
  induction n as [|n IH]; intros lo l Hl H; cbn [loop] in H; [now injection H as <-|].
  apply bind_ok in H as (x & Hx & H). eapply IH; [|exact H]. eapply Hb; eassumption.
Qed.
Lemma analyse_three A n from (data : list (row A)) rule s :
  (forall i v p d, rule i v p = Ok d -> three d) -> analyse n from data rule = Ok s -> Forall three s.
Proof.
  intros Hr H. unfold analyse in H. apply bind_ok in H as (l & Hl & H). apply make_three in Hl.
  unfold range_ in H. eapply for_three; [|exact Hl|exact H]. cbv beta. intros i x x' Hx E.
  apply bind_ok in E as (v & _ & E). destruct (i <? from); [now injection E as <-|].
  apply bind_ok in E as (pr & _ & E). apply bind_ok in E as (d & Hd & E). eapply set_three; [exact Hx| |exact E]. eapply Hr, Hd.
Qed.
End Run.

Section Sides3.
Context {N : Num}.
Lemma sides_three (I : Indicator (N := N)) (p : Param I) (kl : list Candle) (s : list Side) :
  In I all_indicators -> sides_of I p kl = Ok s -> Forall three s.
Proof.
  intros HI H. unfold sides_of in H. destruct (AnalysisSide I p kl []) as [[d s']|] eqn:E; cbn [rmap bind snd] in H; [|discriminate].
  injection H as <-. unfold AnalysisSide in E. destruct (Sides I) as [f|] eqn:Ef; [|discriminate].
  apply bind_ok in E as (d' & _ & E). apply bind_ok in E as (s1 & Hs & E). injection E as <- <-. revert Hs.
  cut (forall d s, f p kl d = Ok s -> Forall three s); [intros G; apply G|]. intros dd ss H.
  assert (CR : forall A (kl : list Candle) (d : list (row A)) b sl s, crossing kl d b sl = Ok s -> Forall three s).
  { intros A kl0 d0 b sl s0. unfold crossing. apply analyse_three. intros i v q x E. injection E as <-. apply three_decide. }
  assert (PC : forall A (kl : list Candle) (d : list (row A)) b sl s, price_crossing kl d b sl = Ok s -> Forall three s).
  { intros A kl0 d0 b sl s0 E. unfold price_crossing in E. apply bind_ok in E as (o & _ & E).
    revert E. apply analyse_three. intros i v q x0 E. repeat (apply bind_ok in E as (? & _ & E)). injection E as <-. apply three_decide. }
  unfold all_indicators, append_style, make_style in HI. cbn [app In] in HI.
  repeat (destruct HI as [<-|HI]); try (destruct HI); cbn [Sides] in Ef; try discriminate Ef; injection Ef as <-;
    try (revert H; first [apply CR|apply PC]).
  - cbv beta delta [ichi_sides] in H. apply bind_ok in H as (o & _ & H). revert H. apply analyse_three.
    intros i v q x0 E. apply bind_ok in E as (? & _ & E). apply bind_ok in E as (? & _ & E). injection E as <-. apply three_decide.
  - revert H. cbv beta delta [begin_sides]. apply analyse_three. intros i v q x E. injection E as <-. apply three_decide.
  - revert H. cbv beta delta [begin_sides]. apply analyse_three. intros i v q x E. injection E as <-. apply three_decide.
  - revert H. cbv beta delta [utbot_sides]. apply analyse_three. intros i v q x E. injection E as <-. apply three_decide.
  - cbv beta delta [traderxo_sides] in H. apply bind_ok in H as (l & Hl & H). apply make_three in Hl.
    apply bind_ok in H as (bs & _ & H). apply bind_ok in H as (sl & _ & H). apply bind_ok in H as (st & H & E). injection E as <-.
    eapply (for_three3 xsides); [| |exact H]; [|exact Hl]. cbv beta. intros i x x' Hx E. destruct (i <? 1).
    + apply bind_ok in E as (l' & Hl' & E). injection E as <-. cbn [xsides]. eapply set_three; [exact Hx| |exact Hl']. right; right; reflexivity.
    + apply bind_ok in E as (r & _ & E). cbv zeta in E. apply bind_ok in E as (b1 & _ & E). apply bind_ok in E as (b2 & _ & E).
      apply bind_ok in E as (b3 & _ & E). apply bind_ok in E as (b4 & _ & E). apply bind_ok in E as (l' & Hl' & E). injection E as <-.
      cbn [xsides]. eapply set_three; [exact Hx| |exact Hl']. apply three_decide.
  - cbv beta delta [vegas_sides] in H. apply bind_ok in H as (o & _ & H). apply bind_ok in H as (l & Hl & H). apply make_three in Hl.
    eapply for_three; [|exact Hl|exact H]. cbv beta. intros i x x' Hx E. destruct (i <? 1); [now injection E as <-|].
    apply bind_ok in E as (r & _ & E). destruct (i - 10 - 1 <? 0); [now injection E as <-|].
    apply bind_ok in E as ([t1 d1] & _ & E). apply bind_ok in E as (bu & _ & E). eapply set_three; [exact Hx| |exact E]. apply three_decide.
  - cbv beta delta [cam_sides] in H. apply bind_ok in H as (l & Hl & H). apply make_three in Hl.
    apply bind_ok in H as (days & _ & H). apply bind_ok in H as (o & _ & H). apply bind_ok in H as ([sec s0] & H & E). injection E as <-.
    change (Forall three (snd (sec, s0))). eapply for_three2; [| |exact H]; [|exact Hl]. cbv beta. intros i [se x] [se' x'] Hx E. cbn [snd] in *.
    apply bind_ok in E as (r & _ & E). cbv zeta in E. apply bind_ok in E as (c & _ & E). apply bind_ok in E as (op & _ & E).
    apply bind_ok in E as (l' & Hl' & E). injection E as <- <-. eapply set_three; [exact Hx| |exact Hl']. apply three_decide.
Qed.
End Sides3.
