(** * CrashTa: which arguments make each function of utils/ta and utils/regression.go panic (proofs of C91). *)
From Verif Require Import Base Num Order Containers BstProofs Ta TaTools TaElem TaAvg TaDev TaMore TaStat TaReg TaRange TaOrd SpecTa Regression SmcBar IndForms IndForms2 PropInd12 Crash.
Set Implicit Arguments.
Open Scope Z_scope.

Lemma runs_if A (c : bool) (a b : res A) P ba bb : (c = true -> runs a P ba) -> (c = false -> runs b P bb) ->
  runs (if c then a else b) P (c = true /\ ba \/ c = false /\ bb).
Proof. intros Ha Hb. destruct c; [eapply runs_eq; [|apply Ha; reflexivity]|eapply runs_eq; [|apply Hb; reflexivity]]; intuition congruence. Qed.
Lemma runs_for S (P : S -> Prop) (bad : Z -> Prop) hi (body : Z -> S -> res S) : forall k lo s, (hi - lo <= Z.of_nat k) -> P s ->
  (forall i s, lo <= i < hi -> P s -> runs (body i s) P (bad i)) -> runs (for_ lo hi body s) P (exists i, lo <= i < hi /\ bad i).
Proof.
  induction k as [|k IH]; intros lo s Hk Hs Hb.
  - rewrite for_empty by lia. eapply runs_eq; [|now apply runs_ok]. split; [tauto|]. intros (i & Hi & _). lia.
  - destruct (Z_lt_le_dec lo hi) as [Hlo|Hlo].
    2:{ rewrite for_empty by lia. eapply runs_eq; [|now apply runs_ok]. split; [tauto|]. intros (i & Hi & _). lia. }
    rewrite for_step by exact Hlo. eapply runs_eq; cycle 1.
    + eapply runs_bind; [apply Hb; [lia|exact Hs]|]. intros _ s' Hs'. apply IH; [lia|exact Hs'|]. intros i s'' Hi. apply Hb. lia.
    + split.
      * intros [B|(i & Hi & B)]; [exists lo|exists i]; (split; [lia|exact B]).
      * intros (i & Hi & B). destruct (Z.eq_dec i lo) as [->|]; [now left|right]. exists i. split; [lia|exact B].
Qed.
Lemma runs_loop S (P : S -> Prop) (bad : Z -> Prop) lo hi (body : Z -> S -> res S) s : P s ->
  (forall i s, lo <= i < hi -> P s -> runs (body i s) P (bad i)) -> runs (for_ lo hi body s) P (exists i, lo <= i < hi /\ bad i).
Proof. intros Hs Hb. apply runs_for with (k := Z.to_nat (hi - lo)); [lia|exact Hs|exact Hb]. Qed.
Lemma g_get A (l : list A) i : runs (get l i) (fun _ => True) (i < 0 \/ len l <= i).
Proof.
  destruct (Z_lt_le_dec i 0) as [H|H]; [apply runs_panic; [now left|apply get_out; now left]|].
  destruct (Z_le_gt_dec (len l) i) as [H'|H']; [apply runs_panic; [now right|apply get_out; now right]|].
  apply runs_good; [lia|]. destruct (@get_in_range _ l i) as [v E]; [lia|]. eauto.
Qed.
Lemma g_set A (l : list A) i v : runs (set l i v) (fun r => len r = len l) (i < 0 \/ len l <= i).
Proof.
  destruct (Z_lt_le_dec i 0) as [H|H]; [apply runs_panic; [now left|]; unfold set; destruct (Z.leb_spec 0 i); [lia|reflexivity]|].
  destruct (Z_le_gt_dec (len l) i) as [H'|H']; [apply runs_panic; [now right|]; unfold set; destruct (Z.leb_spec 0 i), (Z.ltb_spec i (len l)); (lia || reflexivity)|].
  apply runs_good; [lia|]. rewrite set_ok by lia. eexists. split; [reflexivity|]. unfold len. now rewrite upd_length.
Qed.
Lemma g_getn A (l : list A) i n : len l = n -> runs (get l i) (fun _ => True) (i < 0 \/ n <= i).
Proof. intros <-. apply g_get. Qed.
Lemma g_setn A (l : list A) i v n : len l = n -> runs (set l i v) (fun r => len r = n) (i < 0 \/ n <= i).
Proof. intros <-. apply g_set. Qed.
Lemma len_repeat A (z : A) (l : list A) : len (repeat z (length l)) = len l.
Proof. unfold len. now rewrite repeat_length. Qed.
Lemma g_make A (z : A) k : runs (make z k) (fun r => len r = k) (k < 0).
Proof.
  destruct (Z_lt_le_dec k 0) as [H|H]; [apply runs_panic; [exact H|]; unfold make; destruct (Z.ltb_spec k 0); [reflexivity|lia]|].
  apply runs_good; [lia|]. rewrite make_ok by lia. eexists. split; [reflexivity|]. unfold len. rewrite repeat_length. lia.
Qed.

Section Ta.
Context {N : Num}.
Local Notation fl := (list F).
Local Notation sized n := (fun r : fl => len r = n).

Lemma g_map1 f (xs : fl) : runs (map1 f xs) (sized (len xs)) False.
Proof. eapply runs_weaken; [|eapply r_map1; reflexivity]. cbn beta. intros a E. unfold len. now rewrite E. Qed.
Lemma g_map2 f (xs ys : fl) : runs (map2 f xs ys) (sized (len xs)) (len ys < len xs).
Proof.
  eapply runs_eq; cycle 1.
  - unfold map2. eapply runs_bind; [apply g_make|cbn beta; intros _ r0 L0].
    apply runs_loop with (P := fun r : fl => len r = len xs) (bad := fun i => len ys <= i); [exact L0|].
    intros i r Hi Hr. eapply runs_eq; cycle 1.
    + eapply runs_bind; [apply g_get|intros _ a _]. eapply runs_bind; [apply g_get|intros _ b _].
      eapply runs_weaken; [|apply g_set]. cbn beta. intros a' E. now rewrite E.
    + rewrite Hr. lia.
  - pose proof (len_nonneg xs). pose proof (len_nonneg ys). split; [intros [?|(i & ? & ?)]; lia|]. intros Hl. right. exists (len ys). lia.
Qed.
Lemma g_Subtract (xs ys : fl) : runs (Subtract xs ys) (sized (len xs)) (len ys < len xs).
Proof.
  eapply runs_eq; cycle 1.
  - unfold Subtract. eapply runs_bind; [apply g_map1|cbn beta; intros _ s Ls].
    instantiate (1 := len ys < len xs). rewrite <- Ls. apply g_map2.
  - tauto.
Qed.
Lemma g_Diff (xs : fl) b : runs (Diff xs b) (sized (len xs)) (b < 0 /\ 0 < len xs).
Proof.
  unfold Diff. eapply runs_eq; cycle 1.
  - eapply runs_bind; [apply r_ShiftRight with (n := length xs); reflexivity|cbn beta; intros _ s Ls]. eapply runs_eq; [|apply g_Subtract].
    instantiate (1 := False). unfold len. lia.
  - unfold len. lia.
Qed.
Lemma g_PercentDiff (xs : fl) b : runs (PercentDiff xs b) (sized (len xs)) (b < 0).
Proof.
  eapply runs_eq; cycle 1.
  - unfold PercentDiff. eapply runs_bind; [apply g_make|cbn beta; intros _ r0 L0].
    apply runs_loop with (P := fun r : fl => len r = len xs) (bad := fun i => i < 0 \/ i < b \/ b < 0 /\ len xs <= i - b); [exact L0|].
    intros i r Hi Hr. eapply runs_eq; cycle 1.
    + eapply runs_bind; [apply g_get|intros _ a _]. eapply runs_bind; [apply g_get|intros _ c _].
      eapply runs_weaken; [|apply g_set]. cbn beta. intros a' E. now rewrite E.
    + rewrite Hr. lia.
  - pose proof (len_nonneg xs). split; [intros [?|(i & ? & ?)]; lia|]. intros Hl. right. exists b. lia.
Qed.
Lemma g_MeanDeviation (xs : fl) p (ma : fl) : runs (MeanDeviation xs p ma) (sized (len xs)) (p <= 0 \/ p <= len xs /\ len ma < len xs).
Proof.
  eapply runs_eq; cycle 1.
  - unfold MeanDeviation. eapply runs_bind; [apply g_make|cbn beta; intros _ r0 L0].
    apply runs_loop with (P := fun r : fl => len r = len xs) (bad := fun i => i < 0 \/ 1 <= p /\ len ma <= i); [exact L0|].
    intros i r Hi Hr. eapply runs_eq; cycle 1.
    + eapply runs_bind.
      * apply runs_loop with (P := fun _ : F => True) (bad := fun j => (j < 0 \/ len xs <= j) \/ (i < 0 \/ len ma <= i)); [exact I|].
        intros j s Hj _. eapply runs_eq; cycle 1.
        -- eapply runs_bind; [apply g_get|intros _ a _]. eapply runs_bind; [apply g_get|intros _ c _]. now apply runs_ok.
        -- tauto.
      * intros _ s _. eapply runs_weaken; [|apply g_set]. cbn beta. intros a' E. now rewrite E.
    + rewrite Hr. split.
      * intros [(j & Hj & B)|B]; [|lia]. lia.
      * intros [B|B]; [right; lia|]. left. exists i. lia.
  - pose proof (len_nonneg xs). pose proof (len_nonneg ma). split; [intros [?|(i & ? & ?)]; lia|].
    intros Hp. right. destruct (Z_le_gt_dec p 0); [exists (p - 1); lia|]. exists (Z.max (p - 1) (len ma)). lia.
Qed.
Lemma g_TRange (hs ls cs : fl) : runs (TRange hs ls cs) (sized (len cs)) (2 <= len cs /\ (len hs < len cs \/ len ls < len cs)).
Proof.
  eapply runs_eq; cycle 1.
  - unfold TRange. eapply runs_bind; [apply g_make|cbn beta; intros _ r0 L0].
    apply runs_loop with (P := fun r : fl => len r = len cs) (bad := fun i => len ls <= i \/ len hs <= i); [exact L0|].
    intros i r Hi Hr. eapply runs_eq; cycle 1.
    + eapply runs_bind; [apply g_get|intros _ a _]. eapply runs_bind; [apply g_get|intros _ c _]. eapply runs_bind; [apply g_get|intros _ d _].
      eapply runs_weaken; [|apply g_set]. cbn beta. intros a' E. now rewrite E.
    + rewrite Hr. lia.
  - pose proof (len_nonneg ls). pose proof (len_nonneg hs). pose proof (len_nonneg cs). split; [intros [?|(i & ? & ?)]; lia|].
    intros [H2 Hp]. right. exists (len cs - 1). lia.
Qed.
Lemma g_TrueRange (hs ls cs : fl) : runs (TrueRange hs ls cs) (sized (len cs)) (2 <= len cs /\ (len hs < len cs \/ len ls < len cs)).
Proof. exact (g_TRange hs ls cs). Qed.
Lemma g_Atr (hs ls cs : fl) p : runs (Atr hs ls cs p) (sized (len cs))
  (1 <= p /\ 2 <= len cs /\ (len hs < len cs \/ len ls < len cs) \/ 2 <= p /\ len cs <= p).
Proof.
  pose proof (len_nonneg cs) as Hn.
  unfold Atr. rewrite make_len. cbn [bind]. destruct (Z.ltb_spec p 1); [apply runs_good; [lia|]; eexists; split; [reflexivity|unfold len; now rewrite repeat_length]|].
  destruct (Z.leb_spec p 1); [eapply runs_eq; [|apply g_TRange]; lia|].
  eapply runs_eq; cycle 1.
  - eapply runs_bind; [apply g_TRange|cbn beta; intros _ tr Lt].
    eapply runs_bind; [eapply r_Rma; reflexivity|cbn beta; intros _ pv Lp].
    assert (Lv : len pv = len cs) by (unfold len in *; congruence).
    eapply runs_bind; [apply (g_getn pv p Lv)|cbn beta; intros _ v _].
    eapply runs_bind; [apply g_setn; apply len_repeat|cbn beta; intros _ r Lr].
    eapply runs_bind with (P := fun q : F * fl => len (snd q) = len cs); [|cbn beta; intros _ [w r'] E; cbn [snd] in E; apply runs_ok; exact E].
    apply runs_loop with (P := fun q : F * fl => len (snd q) = len cs) (bad := fun i => i < 0 \/ len cs <= i).
    + exact Lr.
    + intros i [w r'] Hi E. cbn [snd] in E. eapply runs_eq; cycle 1.
      * eapply runs_bind; [apply (g_getn tr i Lt)|cbn beta; intros _ t _]. eapply runs_bind; [apply (g_setn r' i _ E)|cbn beta; intros _ r2 L2]. apply runs_ok. exact L2.
      * tauto.
  - split; [intros [B|[B|[B|[B|[(i & B)|B]]]]]; lia|]. intros [B|B]; [left; lia|]. right. right. left. lia.
Qed.
Lemma g_Natr (hs ls cs : fl) p : runs (Natr hs ls cs p) (sized (len cs))
  (1 <= p /\ 2 <= len cs /\ (len hs < len cs \/ len ls < len cs) \/ 2 <= p /\ len cs <= p).
Proof.
  pose proof (len_nonneg cs) as Hn.
  unfold Natr. rewrite make_len. cbn [bind]. destruct (Z.ltb_spec p 1); [apply runs_good; [lia|]; eexists; split; [reflexivity|apply len_repeat]|].
  destruct (Z.leb_spec p 1); [eapply runs_eq; [|apply g_TRange]; lia|].
  eapply runs_eq; cycle 1.
  - eapply runs_bind; [apply g_TRange|cbn beta; intros _ tr Lt].
    eapply runs_bind with (b1 := False); [eapply runs_eq; [|eapply r_Sma; reflexivity]; lia|cbn beta; intros _ pv Lp].
    assert (Lv : len pv = len cs) by (unfold len in *; congruence).
    eapply runs_bind; [apply (g_getn pv p Lv)|cbn beta; intros _ v _].
    eapply runs_bind; [apply g_get|cbn beta; intros _ tv _].
    eapply runs_bind with (P := fun r : fl => len r = len cs) (b1 := p < 0 \/ len cs <= p).
    { destruct (negb _); apply g_setn; apply len_repeat. }
    cbn beta. intros _ r Lr.
    eapply runs_bind with (P := fun q : F * fl => len (snd q) = len cs); [|cbn beta; intros _ [w r'] E; cbn [snd] in E; apply runs_ok; exact E].
    apply runs_loop with (P := fun q : F * fl => len (snd q) = len cs) (bad := fun i => i < 0 \/ len cs <= i).
    + exact Lr.
    + intros i [w r'] Hi E. cbn [snd] in E. eapply runs_eq; cycle 1.
      * eapply runs_bind; [apply (g_getn tr i Lt)|cbn beta; intros _ t _]. eapply runs_bind; [apply g_get|cbn beta; intros _ u _].
        eapply runs_bind with (P := fun r : fl => len r = len cs) (b1 := i < 0 \/ len cs <= i); [|cbn beta; intros _ r2 L2; apply runs_ok; exact L2].
        destruct (negb _); [apply (g_setn r' i _ E)|]. eapply runs_eq; [|apply (g_setn r' 0 _ E)]. lia.
      * tauto.
  - split; [intros [B|[B|[B|[B|[B|[(i & B)|B]]]]]]; lia|]. intros [B|B]; [left; lia|]. right. right. left. lia.
Qed.
Lemma g_Stochastic (cl hi lo : fl) p : runs (Stochastic cl hi lo p) (fun r => len (fst r) = len cl /\ len (snd r) = len cl)
  (p < 0 \/ p = 0 /\ (0 < len hi \/ 0 < len lo) \/ len lo < len cl \/ len lo < len hi \/ len hi < len cl).
Proof.
  unfold Stochastic. eapply runs_eq; cycle 1.
  - eapply runs_bind; [eapply r_Max; reflexivity|cbn beta; intros _ h Lh]. eapply runs_bind; [eapply r_Min; reflexivity|cbn beta; intros _ l Ll].
    assert (Lh' : len h = len hi) by (unfold len; congruence). assert (Ll' : len l = len lo) by (unfold len; congruence).
    eapply runs_bind with (P := fun r : fl => len r = len cl) (b1 := len lo < len cl); [rewrite <- Ll'; apply g_Subtract|cbn beta; intros _ a La].
    eapply runs_bind with (P := fun r : fl => len r = len hi) (b1 := len lo < len hi); [rewrite <- Lh', <- Ll'; apply g_Subtract|cbn beta; intros _ b Lb].
    instantiate (1 := len hi < len cl). eapply runs_eq; cycle 1.
    + eapply runs_bind with (P := fun r : fl => len r = len cl) (b1 := len hi < len cl); [rewrite <- Lb, <- La; apply g_map2|cbn beta; intros _ c Lc].
      eapply runs_bind; [apply g_map1|cbn beta; intros _ d Ld].
      eapply runs_bind with (b1 := False); [eapply runs_eq; [|eapply r_Sma; reflexivity]; lia|cbn beta; intros _ e Le].
      apply runs_ok. cbn [fst snd]. unfold len in *. split; congruence.
    + tauto.
  - unfold len. lia.
Qed.
Lemma g_lr out (xs : fl) p : runs (lr_loop out xs p) (sized (len xs)) (p <= 0 \/ len xs < p).
Proof.
  destruct (Z_le_gt_dec p 0) as [Hp|Hp]; [apply runs_panic; [lia|]; apply lr_panic; lia|].
  destruct (Z_lt_le_dec (len xs) p) as [Hn|Hn]; [apply runs_panic; [lia|]; apply lr_panic; lia|].
  apply runs_good; [lia|]. destruct (@lr_total N out xs p) as (r & E & L); [lia|]. exists r. split; [exact E|]. unfold len. now rewrite L.
Qed.
Lemma g_Variance (xs : fl) p : runs (Variance xs p) (sized (len xs)) (p <= 0 \/ len xs < p).
Proof.
  pose proof (len_nonneg xs) as Hn. unfold Variance. rewrite make_len. cbn [bind].
  set (i0 := if p >? 1 then p - 1 else 0). assert (Hi0 : i0 = Z.max 0 (p - 1)) by (unfold i0; destruct (Z.gtb_spec p 1); lia).
  assert (B : forall i st, len (snd st) = len xs -> runs (var_body xs p i0 i st) (fun q => len (snd q) = len xs)
     ((i < 0 \/ len xs <= i) \/ (i - i0 < 0 \/ len xs <= i - i0) \/ (p - 1 + (i - i0) < 0 \/ len xs <= p - 1 + (i - i0)) \/ False)).
  { intros i [[t1 t2] r] Lr. cbn [snd] in Lr. unfold var_body. eapply runs_bind; [apply g_get|cbn beta; intros _ a _].
    eapply runs_bind; [apply g_get|cbn beta; intros _ b _]. eapply runs_bind; [apply (g_setn r _ _ Lr)|cbn beta; intros _ r' Lr']. now apply runs_ok. }
  eapply runs_eq; cycle 1.
  - eapply runs_bind with (P := fun _ => True).
    { apply runs_loop with (P := fun _ => True) (bad := fun i => i < 0 \/ len xs <= i); [exact I|]. intros i [t1 t2] Hi _. eapply runs_eq; cycle 1.
      - eapply runs_bind; [apply g_get|cbn beta; intros _ a _]. now apply runs_ok.
      - tauto. }
    cbn beta. intros _ [t1 t2] _.
    eapply runs_bind; [apply B; cbn [snd]; apply len_repeat|cbn beta; intros _ st Ls].
    eapply runs_bind; [apply runs_loop with (P := fun q : F * F * fl => len (snd q) = len xs); [exact Ls|]; intros i s' Hi Ls'; apply B; exact Ls'|].
    cbn beta. intros _ [[u1 u2] r] Lr. apply runs_ok. exact Lr.
  - split.
    + intros [(i & C)|[C|[(i & C)|C]]]; lia.
    + intros C. right. left. lia.
Qed.
Lemma g_StdDev (xs : fl) p d : runs (StdDev xs p d) (sized (len xs)) (p <= 0 \/ len xs < p).
Proof.
  assert (B : forall (out : F -> F) (r : fl), len r = len xs -> runs (for_ 0 (len xs) (fun i r => t <- get r i ;; if negb (t <~ sd_eps) then set r i (out t) else set r i (ofZ 0)) r) (sized (len xs)) False).
  { intros out r Lr. eapply runs_eq; cycle 1.
    - apply runs_loop with (P := fun r : fl => len r = len xs) (bad := fun i => i < 0 \/ len xs <= i); [exact Lr|]. intros i r' Hi Lr'. eapply runs_eq; cycle 1.
      + eapply runs_bind; [apply (g_getn r' i Lr')|cbn beta; intros _ t _]. destruct (negb _); apply (g_setn r' i _ Lr').
      + tauto.
    - split; [intros (i & C); lia|tauto]. }
  unfold StdDev. eapply runs_eq; cycle 1.
  - eapply runs_bind; [apply g_Variance|cbn beta; intros _ r Lr]. destruct (negb (d ==~ ofZ 1)); [exact (B (fun t => fsqrt t *~ d) r Lr)|exact (B (fun t => fsqrt t) r Lr)].
  - tauto.
Qed.
Lemma g_Highest (xs : fl) k : runs (Highest xs k) (fun _ => True) (len xs = 0).
Proof.
  pose proof (len_nonneg xs). unfold Highest. eapply runs_eq; cycle 1.
  - eapply runs_bind; [apply g_get|cbn beta; intros _ a _].
    apply runs_loop with (P := fun _ => True) (bad := fun i => len xs - 1 - i < 0 \/ len xs <= len xs - 1 - i); [exact I|]. intros i s Hi _. eapply runs_eq; cycle 1.
    + eapply runs_bind; [apply g_get|cbn beta; intros _ b _]. now apply runs_ok.
    + tauto.
  - split; [intros [C|(i & C)]; lia|]. intros C. left. lia.
Qed.
Lemma g_Lowest (xs : fl) k : runs (Lowest xs k) (fun _ => True) (len xs = 0).
Proof.
  pose proof (len_nonneg xs). unfold Lowest. eapply runs_eq; cycle 1.
  - eapply runs_bind; [apply g_get|cbn beta; intros _ a _].
    apply runs_loop with (P := fun _ => True) (bad := fun i => len xs - 1 - i < 0 \/ len xs <= len xs - 1 - i); [exact I|]. intros i s Hi _. eapply runs_eq; cycle 1.
    + eapply runs_bind; [apply g_get|cbn beta; intros _ b _]. now apply runs_ok.
    + tauto.
  - split; [intros [C|(i & C)]; lia|]. intros C. left. lia.
Qed.
Lemma g_pivots (pick : tree F -> option F) (xs : fl) l r : (pick = @tMax F \/ pick = @tMin F) ->
  runs (pivots pick xs l r) (sized (len xs)) ((l < 0 \/ r < 0) /\ l + r < len xs).
Proof.
  intros HP. pose proof (len_nonneg xs) as Hn.
  assert (Hs : forall t : tree F, t <> Leaf -> exists m, pick t = Some m).
  { intros t Ht. destruct (SmcBar.pick_some Ht) as [A B]. destruct HP as [-> | ->]; assumption. }
  assert (Hl : pick Leaf = None) by (destruct HP as [-> | ->]; reflexivity).
  destruct (Z_lt_le_dec (l + r) 0) as [H1|H1].
  { apply runs_panic; [lia|]. unfold pivots. rewrite make_len. cbn [bind]. rewrite for_step by lia. unfold slice.
    destruct (Z.leb_spec 0 (l + r - r - l)); [|lia]. destruct (Z.leb_spec (l + r - r - l) (l + r + 1)); [|reflexivity].
    destruct (Z.leb_spec (l + r + 1) (len xs)); [|reflexivity]. cbn [andb bind].
    match goal with |- context [tInserts cmpF Leaf ?w] => assert (Ew : w = []) end.
    { apply length_zero_iff_nil. rewrite skipn_length, firstn_length. lia. }
    rewrite Ew. cbn [tInserts bind]. rewrite Hl. reflexivity. }
  eapply runs_eq; cycle 1.
  - unfold pivots. eapply runs_bind; [apply g_make|cbn beta; intros _ r0 L0].
    apply runs_loop with (P := fun r : fl => len r = len xs) (bad := fun i => i - r < 0 \/ len xs <= i - r); [exact L0|].
    intros i pv Hi Hv. unfold slice.
    destruct (Z.leb_spec 0 (i - r - l)); [|lia]. destruct (Z.leb_spec (i - r - l) (i + 1)); [|lia]. destruct (Z.leb_spec (i + 1) (len xs)); [|lia]. cbn [andb bind].
    match goal with |- context [tInserts cmpF Leaf ?w] => destruct (@tInserts_some N Leaf w) as (t & Et & Ht) end.
    { right. intros E. apply (f_equal (@length F)) in E. rewrite skipn_length, firstn_length in E. cbn [length] in E. unfold len in *. lia. }
    rewrite Et. cbn [bind]. destruct (Hs t Ht) as (mm & Em). rewrite Em. cbn [assertF bind]. eapply runs_eq; cycle 1.
    + eapply runs_bind; [apply g_get|cbn beta; intros _ c _]. instantiate (1 := False). destruct (c ==~ mm); [|now apply runs_ok].
      eapply runs_eq; [|apply (g_setn pv i mm Hv)]. lia.
    + tauto.
  - split.
    + intros [C|(i & Hi & C)]; lia.
    + intros [C D]. right. destruct (Z_lt_le_dec l 0); [exists (l + r)|exists (len xs - 1)]; lia.
Qed.
Lemma g_PivotMin (xs : fl) k l r : runs (PivotMin xs k l r) (fun _ => True) (k < 0 \/ len xs <= k).
Proof.
  unfold PivotMin. eapply runs_eq; cycle 1.
  - eapply runs_bind; [apply g_get|cbn beta; intros Hk c _].
    eapply runs_bind with (P := fun _ => True) (b1 := False).
    { eapply runs_eq; cycle 1; [apply runs_loop with (P := fun _ => True) (bad := fun i => (k - i < 0 \/ len xs <= k - i) \/ False); [exact I|]|].
      - intros i [lv lp] Hi _. eapply runs_bind; [apply g_get|cbn beta; intros _ v _]. now apply runs_ok.
      - split; [intros (i & Hi & C); lia|tauto]. }
    cbn beta. intros _ [lv lp] _.
    eapply runs_bind with (P := fun _ => True) (b1 := False).
    { eapply runs_eq; cycle 1; [apply runs_loop with (P := fun _ => True) (bad := fun i => (k + i < 0 \/ len xs <= k + i) \/ False); [exact I|]|].
      - intros i [rv rp] Hi _. eapply runs_bind; [apply g_get|cbn beta; intros _ v _]. now apply runs_ok.
      - split; [intros (i & Hi & C); lia|tauto]. }
    cbn beta. intros _ [rv rp] _. instantiate (1 := False).
    destruct (lv <~ rv); [now apply runs_ok|]. destruct (rv <~ lv); [now apply runs_ok|].
    eapply runs_eq; cycle 1; [eapply runs_bind; [apply g_get|cbn beta; intros _ v _; now apply runs_ok]|tauto].
  - tauto.
Qed.
Lemma g_PivotMax (xs : fl) k l r : (fzero <~ fzero) = false -> runs (PivotMax xs k l r) (fun _ => True) (k < 0 \/ len xs <= k).
Proof.
  intros H0. pose proof (len_nonneg xs) as Hn.
  destruct (Z_lt_le_dec k 0) as [Hk|Hk].
  - apply runs_panic; [lia|]. unfold PivotMax. rewrite for_empty by lia. cbn [bind].
    destruct (Z_lt_le_dec r 0) as [Hr|Hr].
    + rewrite for_empty by lia. cbn [bind]. rewrite !H0. rewrite get_out by lia. reflexivity.
    + rewrite for_step by lia. rewrite get_out by lia. reflexivity.
  - destruct (Z_le_gt_dec (len xs) k) as [Hk'|Hk'].
    + apply runs_panic; [lia|]. unfold PivotMax. destruct (Z_lt_le_dec l 0) as [Hl|Hl].
      * rewrite for_empty by lia. cbn [bind]. rewrite for_empty by lia. cbn [bind]. rewrite !H0. rewrite get_out by lia. reflexivity.
      * rewrite for_step by lia. rewrite get_out by lia. reflexivity.
    + unfold PivotMax. eapply runs_eq; cycle 1.
      * eapply runs_bind with (P := fun _ => True) (b1 := False).
        { eapply runs_eq; cycle 1; [apply runs_loop with (P := fun _ => True) (bad := fun i => (k - i < 0 \/ len xs <= k - i) \/ False); [exact I|]|].
          - intros i [lv lp] Hi _. eapply runs_bind; [apply g_get|cbn beta; intros _ v _]. now apply runs_ok.
          - split; [intros (i & Hi & C); lia|tauto]. }
        cbn beta. intros _ [lv lp] _.
        eapply runs_bind with (P := fun _ => True) (b1 := False).
        { eapply runs_eq; cycle 1; [apply runs_loop with (P := fun _ => True) (bad := fun i => (k + i < 0 \/ len xs <= k + i) \/ False); [exact I|]|].
          - intros i [rv rp] Hi _. eapply runs_bind; [apply g_get|cbn beta; intros _ v _]. now apply runs_ok.
          - split; [intros (i & Hi & C); lia|tauto]. }
        cbn beta. intros _ [rv rp] _. instantiate (1 := False).
        destruct (rv <~ lv); [now apply runs_ok|]. destruct (lv <~ rv); [now apply runs_ok|].
        eapply runs_eq; cycle 1; [eapply runs_bind; [apply g_get|cbn beta; intros _ v _; now apply runs_ok]|lia].
      * lia.
Qed.
Lemma g_CrossOver (xs : fl) s : runs (CrossOver xs s) (fun _ => True) (len xs = 0 \/ exists v, xs = [v] /\ (s <~ v) = true).
Proof.
  unfold CrossOver. destruct xs as [|a xs]; [apply runs_panic; [now left|reflexivity]|].
  destruct xs as [|b xs].
  - cbn. destruct (s <~ a) eqn:E; [apply runs_panic; eauto|apply runs_good; [|eauto]].
    intros [C|(v & C & D)]; [discriminate C|]. injection C as ->. congruence.
  - apply runs_good; [intros [C|(v & C & _)]; [unfold len in C; cbn in C; lia|discriminate C]|].
    set (l := a :: b :: xs). assert (2 <= len l) by (unfold l, len; cbn [length]; lia).
    destruct (@get_in_range _ l (len l - 1)) as [x ->]; [lia|]. cbn [bind]. destruct (s <~ x); [|eauto].
    destruct (@get_in_range _ l (len l - 2)) as [y ->]; [lia|]. cbn [bind]. eauto.
Qed.
Lemma g_CrossUnder (xs : fl) s : runs (CrossUnder xs s) (fun _ => True) (len xs = 0 \/ exists v, xs = [v] /\ (v <~ s) = true).
Proof.
  unfold CrossUnder. destruct xs as [|a xs]; [apply runs_panic; [now left|reflexivity]|].
  destruct xs as [|b xs].
  - cbn. destruct (a <~ s) eqn:E; [apply runs_panic; eauto|apply runs_good; [|eauto]].
    intros [C|(v & C & D)]; [discriminate C|]. injection C as ->. congruence.
  - apply runs_good; [intros [C|(v & C & _)]; [unfold len in C; cbn in C; lia|discriminate C]|].
    set (l := a :: b :: xs). assert (2 <= len l) by (unfold l, len; cbn [length]; lia).
    destruct (@get_in_range _ l (len l - 1)) as [x ->]; [lia|]. cbn [bind]. destruct (x <~ s); [|eauto].
    destruct (@get_in_range _ l (len l - 2)) as [y ->]; [lia|]. cbn [bind]. eauto.
Qed.
Lemma g_LeastSquare (x y : fl) : runs (LeastSquare x y) (fun _ => True) (len y < len x).
Proof.
  pose proof (len_nonneg y). pose proof (len_nonneg x). unfold LeastSquare. eapply runs_eq; cycle 1.
  - eapply runs_bind with (P := fun _ => True).
    + apply runs_loop with (P := fun _ => True) (bad := fun i => (i < 0 \/ len x <= i) \/ (i < 0 \/ len y <= i) \/ False); [exact I|].
      intros i s Hi _. eapply runs_bind; [apply g_get|cbn beta; intros _ a _]. eapply runs_bind; [apply g_get|cbn beta; intros _ b _]. now apply runs_ok.
    + cbn beta. intros _ s _. now apply runs_ok.
  - split; [intros [(i & C)|[]]; lia|]. intros C. left. exists (len y). lia.
Qed.
Lemma g_MLS p (x y : fl) : runs (MovingLeastSquare p x y) (fun r => len (fst r) = len x /\ len (snd r) = len x) (0 < len x /\ p < 0 \/ len y < len x).
Proof.
  pose proof (len_nonneg y). pose proof (len_nonneg x). unfold MovingLeastSquare. eapply runs_eq; cycle 1.
  - eapply runs_bind; [apply g_make|cbn beta; intros _ m Lm]. eapply runs_bind; [apply g_make|cbn beta; intros _ b Lb].
    eapply runs_bind with (P := fun q : sums4 * fl * fl => len (snd (fst q)) = len x /\ len (snd q) = len x).
    + apply runs_loop with (P := fun q : sums4 * fl * fl => len (snd (fst q)) = len x /\ len (snd q) = len x)
        (bad := fun i => len y <= i \/ i >= p /\ (len x <= i - p \/ len y <= i - p)); [auto|].
      intros i [[s m'] b'] Hi [L1 L2]. cbn [fst snd] in L1, L2. eapply runs_eq; cycle 1.
      * eapply runs_bind; [apply g_get|cbn beta; intros _ xi _]. eapply runs_bind; [apply g_get|cbn beta; intros _ yi _].
        eapply runs_bind with (P := fun _ => True) (b1 := i >= p /\ (len x <= i - p \/ len y <= i - p)).
        -- destruct (Z.geb_spec i p) as [Hp|Hp]; [|eapply runs_eq; [|now apply runs_ok]; lia]. eapply runs_eq; cycle 1.
           ++ eapply runs_bind; [apply g_get|cbn beta; intros _ xo _]. eapply runs_bind; [apply g_get|cbn beta; intros _ yo _]. now apply runs_ok.
           ++ lia.
        -- cbn beta. intros _ [s' n'] _. destruct (s4_line n' s') as [mi bi].
           eapply runs_bind; [apply (g_setn m' i mi L1)|cbn beta; intros _ m2 Lm2]. eapply runs_bind; [apply (g_setn b' i bi L2)|cbn beta; intros _ b2 Lb2].
           apply runs_ok. cbn [fst snd]. auto.
      * lia.
    + cbn beta. intros _ [[s m'] b'] L. cbn [fst snd] in L. apply runs_ok. exact L.
  - split; [intros [C|[C|[(i & C)|C]]]; lia|]. intros C. right. right. left.
    destruct (Z_lt_le_dec p 0) as [Hp|Hp]; [|exists (len y); lia]. exists (len x - 1). lia.
Qed.
Lemma g_LRU (x y : fl) : runs (LinearRegressionUsingLeastSquare x y) (sized (len x)) (len y < len x).
Proof.
  pose proof (len_nonneg x). unfold LinearRegressionUsingLeastSquare. eapply runs_eq; cycle 1.
  - eapply runs_bind; [apply g_LeastSquare|cbn beta; intros _ [m b] _]. eapply runs_bind; [apply g_make|cbn beta; intros _ r Lr].
    apply runs_loop with (P := fun r : fl => len r = len x) (bad := fun i => (i < 0 \/ len x <= i) \/ (i < 0 \/ len x <= i)); [exact Lr|].
    intros i r' Hi Lr'. eapply runs_bind; [apply g_get|cbn beta; intros _ xi _]. apply (g_setn r' i _ Lr').
  - split; [intros [C|[C|(i & C)]]; lia|]. tauto.
Qed.
Lemma g_MLRU p (x y : fl) : runs (MovingLinearRegressionUsingLeastSquare p x y) (sized (len x)) (0 < len x /\ p < 0 \/ len y < len x).
Proof.
  pose proof (len_nonneg x). unfold MovingLinearRegressionUsingLeastSquare. eapply runs_eq; cycle 1.
  - eapply runs_bind; [apply g_MLS|cbn beta; intros _ [m b] [Lm Lb]; cbn [fst snd] in *]. eapply runs_bind; [apply g_make|cbn beta; intros _ r Lr].
    apply runs_loop with (P := fun r : fl => len r = len x) (bad := fun i => (i < 0 \/ len x <= i) \/ (i < 0 \/ len x <= i) \/ (i < 0 \/ len x <= i) \/ (i < 0 \/ len x <= i)); [exact Lr|].
    intros i r' Hi Lr'. eapply runs_bind; [apply (g_getn m i Lm)|cbn beta; intros _ mi _]. eapply runs_bind; [apply g_get|cbn beta; intros _ xi _].
    eapply runs_bind; [apply (g_getn b i Lb)|cbn beta; intros _ bi _]. apply (g_setn r' i _ Lr').
  - split; [intros [C|[C|(i & C)]]; lia|]. tauto.
Qed.
End Ta.
