(** * PropRows: C105, the rows a caller was given and the rows of the object. *)
From Coq Require Import String.
From Verif Require Import Base Num B64 XReal Lits Sides Klines IndBase IndTrend IndChannel IndVolume IndOsc IndAll IndTools IndLife SpecInd PropInd1
  PropLive RowMem SpecRows RowMemProofs.
Set Implicit Arguments.
Unset Strict Implicit.
Open Scope Z_scope.

Lemma nth_firstn A (l : list A) n i : (i < n)%nat -> nth_error (firstn n l) i = nth_error l i.
Proof. revert n i. induction l as [|x l IH]; intros [|n] [|i] H; cbn; try reflexivity; try lia. apply IH. lia. Qed.
Lemma runs_more (N : Num) (I : Indicator (N := N)) (ok ok' : RowSlice -> Prop) (h h' : Heap I) : (forall t, ok t -> ok' t) -> runs ok h h' -> runs ok' h h'.
Proof. intros H. induction 1; [apply stop|eapply lib_then; eassumption|eapply own_then; eauto]. Qed.
Lemma runs_trans (N : Num) (I : Indicator (N := N)) (ok : RowSlice -> Prop) (h h1 h2 : Heap I) : runs ok h h1 -> runs ok h1 h2 -> runs ok h h2.
Proof. intros R1 R2. induction R1; [exact R2|eapply lib_then; eauto|eapply own_then; eauto]. Qed.

(** The rows a caller was given stay what they were, whatever is called on whichever
    object afterwards with whichever candles, and whatever the caller does with rows
    it got elsewhere. *)
Theorem C105_given_rows_stay (N : Num) (I : Indicator (N := N)) (h h' : Heap I) (k : nat) (s : RowSlice) :
  reached h -> given h k s -> elsewhere s h h' -> rows_in (mem h') s = rows_in (mem h) s.
Proof.
  intros R G E. pose proof (sound_reached R) as S. exact (proj2 (below_runs (fun t Ht => Ht) E S (given_below S G))).
Qed.
Print Assumptions C105_given_rows_stay.
Theorem C105_calls_only (N : Num) (I : Indicator (N := N)) (h h' : Heap I) (k : nat) (s : RowSlice) :
  reached h -> given h k s -> only_calls h h' -> rows_in (mem h') s = rows_in (mem h) s.
Proof. intros R G E. apply (C105_given_rows_stay R G). apply (runs_more (ok := fun _ => False)); [tauto|exact E]. Qed.
Print Assumptions C105_calls_only.

(** Calculation changes no other object, and its own object as the functional model says. *)
Theorem C105_one_object (N : Num) (I : Indicator (N := N)) (h : Heap I) (k : nat) (d : RowSlice) (p : Param I) (kl : list Candle) (m' : RowMem I) (d' : RowSlice) :
  reached h -> nth_error (objs h) k = Some d -> calculates (mem h) d p kl m' d' ->
  Calculation I p kl (rows_in (mem h) d) = Ok (rows_in m' d') /\
  forall k2 r, k2 <> k -> reports h k2 r -> reports (mkHeap m' (upd (objs h) k d') (held h)) k2 r.
Proof.
  intros R Hk C. pose proof (sound_reached R) as S. destruct (calculates_frame C (s_objs S Hk)) as (F1 & F2 & F3 & F4 & F5).
  split; [exact F5|]. intros k2 r Ne (d2 & H2 & H0 & Er). exists d2. cbn [objs mem]. rewrite nth_error_upd_ne by congruence.
  split; [exact H2|]. split; [exact H0|]. rewrite F4; [exact Er|apply (s_objs S H2)|]. intros Ea. exfalso. apply H0.
  pose proof (s_own S Ne H2 Hk Ea) as E0. destruct (s_objs S H2) as [_ L]. unfold array_in in L. rewrite E0, (proj2 (s_nil S)) in L. cbn in L. lia.
Qed.
Print Assumptions C105_one_object.

(** A row the caller overwrites is overwritten in the object: the next GetData and
    AnalysisSide see it.  No other object does. *)
Theorem C105_writes_show (N : Num) (I : Indicator (N := N)) (h : Heap I) (k i : nat) (s : RowSlice) (x : row (Val I)) (r : list (row (Val I))) :
  reached h -> given h k s -> (i < rsLen s)%nat -> reports h k r ->
  let h' := mkHeap (upd (mem h) (rsArr s) (upd (array_in (mem h) s) i x)) (objs h) (held h) in
  own_step h s h' /\ reports h' k (upd r i x) /\ forall k2 r2, k2 <> k -> reports h k2 r2 -> reports h' k2 r2.
Proof.
  intros R (Hk & H0 & Hh) Hi (d & Hd & _ & Er) h'. pose proof (sound_reached R) as S. rewrite Hk in Hd. injection Hd as <-.
  split; [now constructor|]. split.
  - exists s. split; [exact Hk|]. split; [exact H0|]. unfold h', rows_in. cbn [mem]. rewrite array_upd, Nat.eqb_refl by apply (s_objs S Hk).
    rewrite firstn_upd_in by exact Hi. now rewrite <- Er.
  - intros k2 r2 Ne (d2 & H2 & H02 & Er2). exists d2. split; [exact H2|]. split; [exact H02|]. unfold h', rows_in. cbn [mem].
    rewrite array_upd by apply (s_objs S Hk). destruct (Nat.eqb (rsArr d2) (rsArr s)) eqn:E; [|exact Er2]. exfalso. apply Nat.eqb_eq in E. apply H02.
    pose proof (s_own S Ne H2 Hk E) as E0. destruct (s_objs S H2) as [_ L]. unfold array_in in L. rewrite E0, (proj2 (s_nil S)) in L. cbn in L. lia.
Qed.
Print Assumptions C105_writes_show.

(** ** Appending to the rows one was given *)
Lemma styles_apart (N : Num) (I : Indicator (N := N)) : In I make_style -> In I append_style \/ I = I_Rma -> False.
Proof.
  intros H1 H2. assert (X1 : In (iname I) (map (@iname N) make_style)) by now apply in_map.
  assert (X2 : In (iname I) (map (@iname N) (append_style ++ [I_Rma]))) by (apply in_map, in_or_app; destruct H2 as [H2|H2]; [now left|right; left; auto]).
  revert X1 X2. generalize (iname I). intros n. unfold make_style, append_style. cbn [map app iname In].
  intros X1 X2. repeat (destruct X1 as [<-|X1]; [repeat (destruct X2 as [X2|X2]; [discriminate X2|]); destruct X2|]). destruct X1.
Qed.
Definition full (N : Num) (I : Indicator (N := N)) (h : Heap I) : Prop := forall k d, nth_error (objs h) k = Some d -> rsLen d = length (array_in (mem h) d).
Lemma full_later (N : Num) (I : Indicator (N := N)) (m m' : RowMem I) (d : RowSlice) : later m m' -> lies m d -> rsLen d = length (array_in m d) -> rsLen d = length (array_in m' d).
Proof. intros [_ F] [L _] E. unfold array_in in *. now rewrite F. Qed.
Lemma full_runs (N : Num) (I : Indicator (N := N)) (ok : RowSlice -> Prop) (h h' : Heap I) : In I make_style -> runs ok h h' -> sound h -> full h -> full h'.
Proof.
  intros HI. induction 1 as [|h h1 h2 St _ IH|h s h1 h2 Hs _ St _ IH]; intros S F; [exact F| |].
  - apply IH; [exact (sound_lib St S)|].
    assert (C0 : forall k d p kl m' d' hs, nth_error (objs h) k = Some d -> calculates (mem h) d p kl m' d' -> full (mkHeap m' (upd (objs h) k d') hs)).
    { intros k d p kl m' d' hs Hk C j x E. cbn [objs mem] in *. destruct (calculates_frame C (s_objs S Hk)) as (F1 & _).
      apply nth_upd_cases in E as [(-> & -> & _)|[_ E]]; [|exact (full_later F1 (s_objs S E) (F j x E))].
      destruct C as (r & _ & [[X _]|[(_ & -> & ->)|[X _]]]); [exfalso; apply (styles_apart HI); auto| |exfalso; apply (styles_apart HI); auto].
      rewrite array_new by reflexivity. reflexivity. }
    destruct St as [|k d p kl m' d' Hk C|k d p kl m' d' Hk H0 C|k d Hk H0|k d Hk]; try (eapply C0; eassumption).
    + intros k d E. cbn [objs mem] in *. destruct (Nat.lt_ge_cases k (length (objs h))) as [Hl|Hl]; [rewrite nth_error_app1 in E by exact Hl; exact (F k d E)|].
      rewrite nth_error_app2 in E by exact Hl. destruct (k - length (objs h))%nat as [|j]; [|destruct j; discriminate E]. injection E as <-.
      unfold array_in. cbn [rsArr rsLen nil_slice]. now rewrite (proj2 (s_nil S)).
    + exact F.
    + intros j x E. cbn [objs mem] in *. apply nth_upd_cases in E as [(_ & -> & _)|[_ E]]; [|exact (F j x E)].
      unfold array_in. cbn [rsArr rsLen nil_slice]. now rewrite (proj2 (s_nil S)).
  - destruct (sound_own St Hs S) as [S1 F1]. apply IH; [exact S1|]. intros k d E.
    assert (Eo : objs h1 = objs h) by (destruct St; reflexivity). rewrite Eo in E. exact (full_later F1 (s_objs S E) (F k d E)).
Qed.
(** The 19 types that allocate their rows: a row appended to the slice one was given
    is the caller's own.  No object sees it, and no call changes it. *)
Theorem C105_appends_partial (N : Num) (I : Indicator (N := N)) (h h2 : Heap I) (k j : nat) (s s' : RowSlice) (x : row (Val I)) (m' : RowMem I) :
  In I make_style -> reached h -> given h k s -> nth_error (held h) j = Some s -> append1 (mem h) s x m' s' ->
  let h1 := mkHeap m' (objs h) (upd (held h) j s') in
  rows_in m' s' = rows_in (mem h) s ++ [x] /\
  (forall k2 r, reports h k2 r -> reports h1 k2 r) /\
  (only_calls h1 h2 -> rows_in (mem h2) s' = rows_in (mem h) s ++ [x]).
Proof.
  intros HI R G Hj A h1. pose proof (sound_reached R) as S.
  assert (F : full h). { apply (full_runs HI R (sound_start I)). intros [|q] d E; discriminate E. }
  destruct G as (Hk & H0 & Hh). pose proof (s_objs S Hk) as L. destruct (append1_frame A L) as (F1 & F2 & F3 & F4 & F5 & F6).
  assert (Ns : rsArr s' = length (mem h)).
  { destruct A as [A|spare A]; [|reflexivity]. rewrite (F k s Hk) in A. lia. }
  split; [exact F3|]. split.
  - intros k2 r (d2 & H2 & H02 & Er). exists d2. split; [exact H2|]. split; [exact H02|]. cbn [mem h1]. rewrite F6; [exact Er|apply (s_objs S H2)|].
    intros Ea. rewrite (F k s Hk), (F k2 d2 H2). unfold array_in. now rewrite Ea.
  - intros E. rewrite <- F3. change m' with (mem h1).
    assert (S1 : sound h1). { refine (proj1 (sound_own (@appends N I h s j x m' s' Hj A) Hh S)). }
    apply (below_runs (ok := fun _ => False)) with (2 := E); [tauto|exact S1|]. split; [exact F2|].
    intros k2 d2 H2 Ea. cbn [objs h1] in H2. pose proof (proj1 (s_objs S H2)). lia.
Qed.
Print Assumptions C105_appends_partial.

(** ** The 26 types that append: a run the language allows *)
Section Bad.
Context {N : Num}.
Variable I : Indicator (N := N).
Implicit Types (m : RowMem I) (s d : RowSlice).
Lemma appends_in_place m d l : lies m d -> (rsLen d + length l <= length (array_in m d))%nat ->
  exists m', append_all m d l m' (mkRS (rsArr d) (rsLen d + length l)).
Proof.
  revert m d. induction l as [|x l IH]; intros m d L H; cbn [length] in *.
  - exists m. rewrite Nat.add_0_r. destruct d. constructor.
  - assert (A : append1 m d x (upd m (rsArr d) (upd (array_in m d) (rsLen d) x)) (mkRS (rsArr d) (S (rsLen d)))) by (apply in_place; lia).
    destruct (append1_frame A L) as (_ & F2 & _). destruct (IH _ _ F2) as (m' & Hm).
    + rewrite array_upd by apply L. cbn [rsArr rsLen]. rewrite Nat.eqb_refl, upd_length. lia.
    + exists m'. cbn [rsArr rsLen] in Hm. replace (rsLen d + S (length l))%nat with (S (rsLen d) + length l)%nat by lia. econstructor; eassumption.
Qed.
Variables (p : Param I) (kl : list Candle) (r : list (row (Val I))) (x : row (Val I)).
Hypothesis HI : In I append_style.
Hypothesis Ho : I <> I_Obv.
Hypothesis Er : rows_of I p kl = Ok r.
Hypothesis Hr : r <> [].
Let n := length r.
Let s := mkRS 1 n.
(** New, GetData, with room for another n rows *)
Lemma bad_start : exists m, reached (mkHeap (I := I) m [s] [s]) /\ rows_in m s = r /\ (n + n <= length (array_in m s))%nat.
Proof.
  destruct r as [|y r'] eqn:E; [congruence|].
  assert (A : append1 (I := I) [[]] nil_slice y [[]; y :: repeat y (n + n)] (mkRS 1 1)).
  { apply (@moved N I [[]] nil_slice y (repeat y (n + n))). cbn. lia. }
  assert (L0 : lies (I := I) [[]] nil_slice) by (split; cbn; lia).
  destruct (append1_frame A L0) as (F1 & F2 & F3 & _).
  destruct (@appends_in_place [[]; y :: repeat y (n + n)] (mkRS 1 1) r' F2) as (m & Hm).
  { unfold array_in. cbn [rsArr rsLen nth length]. rewrite repeat_length. subst n. cbn [length]. lia. }
  change (mkRS 1 1) with (mkRS (rsArr (mkRS 1 1)) 1) in Hm at 2. cbn [rsArr rsLen] in Hm.
  assert (Es : mkRS 1 (1 + length r') = s) by reflexivity. rewrite Es in Hm.
  destruct (append_all_frame Hm F2) as (G1 & G2 & G3 & _).
  exists m. split; [|split].
  - eapply lib_then; [apply calls_New|]. cbn [start mem objs held app]. eapply lib_then; [|apply stop].
    refine (@calls_GetData_first N I (mkHeap [[]] [nil_slice] []) 0 nil_slice p kl m s eq_refl eq_refl _).
    exists (y :: r'). split; [exact Er|]. left. split; [exact HI|]. cbn [rsLen nil_slice skipn mem]. econstructor; eassumption.
  - rewrite G3, F3. reflexivity.
  - destruct G1 as [_ G1]. specialize (G1 1%nat ltac:(cbn; lia)). unfold array_in. cbn [rsArr s]. rewrite G1. cbn [nth length]. rewrite repeat_length. lia.
Qed.
Lemma bad_again m hs d : lies m d -> rsArr d = 1%nat -> rsLen d = n -> rows_in m d = r -> (n + n <= length (array_in m d))%nat ->
  exists m', lib_step (mkHeap m [d] hs) (mkHeap m' [mkRS 1 (n + n)] hs) /\ append_all m d r m' (mkRS 1 (n + n)).
Proof.
  intros L Ha Hl Hd Hc. destruct (@appends_in_place m d r L) as (m' & Hm); [fold n; lia|]. rewrite Ha, Hl in Hm. fold n in Hm.
  exists m'. split; [|exact Hm]. change [mkRS 1 (n + n)] with (upd [d] 0 (mkRS 1 (n + n))).
  apply (@calls_Calculation N I (mkHeap m [d] hs) 0 d p kl m' (mkRS 1 (n + n))); [reflexivity|]. cbn [mem].
  exists (r ++ r). split; [rewrite append_any by assumption; rewrite Hd, Er; reflexivity|]. left. split; [exact HI|].
  rewrite Hl. unfold n at 1. rewrite skipn_app, skipn_all, Nat.sub_diag. exact Hm.
Qed.
End Bad.
(** The caller appends a row x to the rows it was given, Calculation is called, and the
    caller's last row is no longer x. *)
Theorem C105_append_lost_refuted (N : Num) (I : Indicator (N := N)) (p : Param I) (kl : list Candle) (r : list (row (Val I))) (x : row (Val I)) :
  In I append_style -> I <> I_Obv -> rows_of I p kl = Ok r -> r <> [] -> nth_error r 0 <> Some x ->
  exists (h : Heap I) s m' s' h2, reached h /\ given h 0 s /\ rows_in (mem h) s = r /\
    append1 (mem h) s x m' s' /\ rows_in m' s' = r ++ [x] /\
    only_calls (mkHeap m' (objs h) (upd (held h) 0 s')) h2 /\ rows_in (mem h2) s' <> r ++ [x].
Proof.
  intros HI Ho Er Hr Hx. destruct (bad_start HI Er Hr) as (m & R & Em & Hc). set (s := mkRS 1 (length r)) in *.
  assert (Hn : length r <> 0%nat) by (destruct r; [congruence|discriminate]).
  pose proof (s_objs (sound_reached R) (k := 0) eq_refl) as L. cbn [mem] in L.
  assert (A : append1 m s x (upd m (rsArr s) (upd (array_in m s) (rsLen s) x)) (mkRS (rsArr s) (S (rsLen s)))) by (apply in_place; cbn [rsLen s]; lia).
  destruct (append1_frame A L) as (F1 & F2 & F3 & _ & _ & F6). set (m1 := upd m _ _) in *. cbn [rsArr rsLen s] in A, F2, F3. fold s in A, F3.
  assert (L1 : lies m1 s) by exact (lies_later F1 L).
  destruct (@bad_again N I p kl r HI Ho Er m1 [mkRS 1 (S (length r))] s L1 eq_refl eq_refl) as (m2 & St & A2).
  { rewrite F6; [exact Em|apply L|auto]. }
  { destruct F1 as [_ F1]. unfold array_in in *. rewrite F1 by apply L. exact Hc. }
  destruct (append_all_frame A2 L1) as (_ & _ & G3 & _).
  exists (mkHeap m [s] [s]), s, m1, (mkRS 1 (S (length r))), (mkHeap m2 [mkRS 1 (length r + length r)] [mkRS 1 (S (length r))]).
  cbn [mem objs held upd]. split; [exact R|]. split; [repeat split; [exact Hn|now left]|]. split; [exact Em|]. split; [exact A|].
  split; [rewrite F3, Em; reflexivity|]. split; [eapply lib_then; [exact St|apply stop]|].
  assert (Er1 : rows_in m1 s = r) by (rewrite F6; [exact Em|apply L|auto]). rewrite Er1 in G3.
  intros Bad. apply Hx. assert (E : nth_error (rows_in m2 (mkRS 1 (S (length r)))) (length r) = Some x) by (rewrite Bad, nth_error_app2, Nat.sub_diag by lia; reflexivity).
  assert (E2 : nth_error (rows_in m2 (mkRS 1 (length r + length r))) (length r) = nth_error r 0) by (rewrite G3, nth_error_app2, Nat.sub_diag by lia; reflexivity).
  rewrite <- E2, <- E. unfold rows_in, array_in. cbn [rsArr rsLen]. rewrite !nth_firstn by lia. reflexivity.
Qed.
Print Assumptions C105_append_lost_refuted.
(** The caller still has the rows it was given before Calculation was called again, and
    appends a row x to them: the object's rows change. *)
Theorem C105_append_intrudes_refuted (N : Num) (I : Indicator (N := N)) (p : Param I) (kl : list Candle) (r : list (row (Val I))) (x : row (Val I)) :
  In I append_style -> I <> I_Obv -> rows_of I p kl = Ok r -> r <> [] ->
  exists (h : Heap I) s m' s', reached h /\ In s (held h) /\ rows_in (mem h) s = r /\ reports h 0 (r ++ r) /\
    append1 (mem h) s x m' s' /\ reports (mkHeap m' (objs h) (upd (held h) 0 s')) 0 (upd (r ++ r) (length r) x).
Proof.
  intros HI Ho Er Hr. destruct (bad_start HI Er Hr) as (m & R & Em & Hc). set (s := mkRS 1 (length r)) in *.
  assert (Hn : length r <> 0%nat) by (destruct r; [congruence|discriminate]).
  pose proof (s_objs (sound_reached R) (k := 0) eq_refl) as L. cbn [mem] in L.
  destruct (@bad_again N I p kl r HI Ho Er m [s] s L eq_refl eq_refl Em Hc) as (m2 & St & A2).
  destruct (append_all_frame A2 L) as (G1 & G2 & G3 & _ & _ & G6). rewrite Em in G3.
  assert (R2 : reached (mkHeap (I := I) m2 [mkRS 1 (length r + length r)] [s])) by (eapply runs_trans; [exact R|eapply lib_then; [exact St|apply stop]]).
  assert (L2 : lies m2 s) by exact (lies_later G1 L).
  assert (Hc2 : (length r + length r <= length (array_in m2 s))%nat) by (destruct G1 as [_ G1]; unfold array_in in *; rewrite G1 by apply L; exact Hc).
  exists (mkHeap m2 [mkRS 1 (length r + length r)] [s]), s, (upd m2 (rsArr s) (upd (array_in m2 s) (rsLen s) x)), (mkRS (rsArr s) (S (rsLen s))).
  cbn [mem objs held]. split; [exact R2|]. split; [now left|]. split; [rewrite G6; [exact Em|apply L|auto]|].
  split; [exists (mkRS 1 (length r + length r)); cbn [objs mem]; repeat split; [cbn [rsLen]; lia|exact G3]|].
  split; [apply in_place; cbn [rsLen s]; lia|].
  exists (mkRS 1 (length r + length r)). cbn [objs mem]. split; [reflexivity|]. split; [cbn [rsLen]; lia|].
  unfold rows_in. rewrite array_upd by apply L2. cbn [rsArr rsLen s Nat.eqb]. rewrite firstn_upd_in by lia. f_equal. exact G3.
Qed.
Print Assumptions C105_append_intrudes_refuted.

(** ** The hypotheses hold in real sessions *)
(** an overwritten row changes the signals: Donchian, whose middle line the caller sets to 100 *)
Definition signals_after (i : nat) (v : Band (N := EX)) : res (list Side) :=
  r <- rows_of (N := EX) I_Donchian 2 (flat [5; 6; 9; 1]) ;; middle_sides (N := EX) (flat [5; 6; 9; 1]) (upd r i (mkRow 0 v)).
Example C105_writes_hyp :
  sides_of (N := EX) I_Donchian 2 (flat [5; 6; 9; 1]) = Ok [Buy; Hold; Hold; Sell] /\
  signals_after 2 (mkBand (fz 100) (fz 100) (fz 100)) = Ok [Buy; Hold; Sell; Hold].
Proof. split; vm_compute; reflexivity. Qed.
(** New and GetData on an object of a type that allocates its rows *)
Lemma made_start (N : Num) (I : Indicator (N := N)) p kl r : In I make_style -> rows_of I p kl = Ok r -> r <> [] ->
  let s := mkRS 1 (length r) in let h := mkHeap (I := I) [[]; r] [s] [s] in reached h /\ given h 0 s /\ reports h 0 r.
Proof.
  intros HI E Hr s h. split; [|split].
  - eapply lib_then; [apply calls_New|]. cbn [start mem objs held app]. eapply lib_then; [|apply stop].
    refine (@calls_GetData_first N I (mkHeap [[]] [nil_slice] []) 0 nil_slice p kl [[]; r] s eq_refl eq_refl _).
    exists r. split; [exact E|]. right. left. now split.
  - repeat split; [|now left]. destruct r; [congruence|discriminate].
  - exists s. repeat split; [destruct r; [congruence|discriminate]|]. unfold rows_in, array_in. cbn [rsArr rsLen s nth mem h]. apply firstn_all.
Qed.
Example C105_hyp : (exists r, rows_of (N := EX) I_Ema 2 (flat [5; 6; 9]) = Ok r /\ length r = 3%nat) /\
  (exists r, rows_of (N := EX) I_Ma 2 (flat [5; 6; 9]) = Ok r /\ length r = 3%nat).
Proof. split; eexists; (split; [reflexivity|reflexivity]). Qed.
