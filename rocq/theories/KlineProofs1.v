(** * KlineProofs1: strategies, in-place filters, copies, columns. *)
From Coq Require Import Permutation.
From Verif Require Import Base Num Sides Klines SpecKlines TaTools.
Set Implicit Arguments.

(** ** RunStrategies *)
Lemma run_loop W (ss : list (Strategy W)) done todo w acts r :
  ss = done ++ todo -> length acts = length ss ->
  for_ (len done) (len ss) (fun i '(w, actions) =>
    s <- get ss i ;; '(w, d) <- s w ;; actions <- set actions i d ;; Ok (w, actions)) (w, acts) = Ok r ->
  exists ds, called_in_order todo w (fst r) ds /\ snd r = firstn (length done) acts ++ ds.
Proof.
  revert done w acts. induction todo as [|s todo IH]; intros done w acts E Hl H.
  - rewrite app_nil_r in E. subst done. rewrite for_empty in H by lia. injection H as <-.
    exists []. split; [constructor|]. rewrite app_nil_r. cbn [snd]. symmetry. apply firstn_all2. lia.
  - assert (Hlt : len done < len ss) by (rewrite E, len_app, len_cons; pose proof (len_nonneg todo); lia).
    rewrite for_step in H by lia.
    assert (Hg : get ss (len done) = Ok s).
    { unfold len. rewrite (@get_nat _ ss (length done) s) by (unfold len in Hlt; lia).
      rewrite E, app_nth2, Nat.sub_diag by lia. reflexivity. }
    rewrite Hg in H. cbn [bind] in H.
    destruct (s w) as [[w1 d]|] eqn:Es; cbn [bind] in H; [|discriminate].
    rewrite set_ok in H by (unfold len in *; lia). cbn [bind] in H.
    replace (Z.to_nat (len done)) with (length done) in H by (unfold len; lia).
    replace (len done + 1) with (len (done ++ [s])) in H by (rewrite len_app, len_cons, len_nil; lia).
    apply IH in H.
    + destruct H as (ds & Hc & Hr). exists (d :: ds). split; [econstructor; eauto|].
      rewrite Hr, app_length. cbn [length].
      rewrite Nat.add_1_r, (firstn_S_nth _ d) by (rewrite upd_length; unfold len in Hlt; lia).
      rewrite nth_upd_eq by (unfold len in Hlt; lia). rewrite <- app_assoc. cbn [app]. f_equal.
      clear. revert acts. induction (length done) as [|k IH]; intros [|a acts]; cbn; auto. now rewrite IH.
    + now rewrite <- app_assoc.
    + now rewrite upd_length.
Qed.

Lemma run_loop_ok W (ss : list (Strategy W)) done todo w w' acts ds :
  ss = done ++ todo -> length acts = length ss -> called_in_order todo w w' ds ->
  exists r, for_ (len done) (len ss) (fun i '(w, actions) =>
    s <- get ss i ;; '(w, d) <- s w ;; actions <- set actions i d ;; Ok (w, actions)) (w, acts) = Ok (w', r).
Proof.
  revert done w acts ds. induction todo as [|s todo IH]; intros done w acts ds E Hl H.
  - inversion H; subst. rewrite app_nil_r. rewrite for_empty by lia. eauto.
  - inversion H as [|? ? ? w1 ? d ds' Es Hc]; subst s0 ss0 w0 w2 ds.
    assert (Hlt : len done < len ss) by (rewrite E, len_app, len_cons; pose proof (len_nonneg todo); lia).
    rewrite for_step by lia.
    assert (Hg : get ss (len done) = Ok s).
    { unfold len. rewrite (@get_nat _ ss (length done) s) by (unfold len in Hlt; lia).
      rewrite E, app_nth2, Nat.sub_diag by lia. reflexivity. }
    rewrite Hg. cbn [bind]. rewrite Es. cbn [bind].
    rewrite set_ok by (unfold len in *; lia). cbn [bind].
    replace (len done + 1) with (len (done ++ [s])) by (rewrite len_app, len_cons, len_nil; lia).
    eapply IH; [now rewrite <- app_assoc|now rewrite upd_length|exact Hc].
Qed.

Lemma called_det W (ss : list (Strategy W)) w w1 w2 d1 d2 :
  called_in_order ss w w1 d1 -> called_in_order ss w w2 d2 -> w1 = w2 /\ d1 = d2.
Proof.
  intros H; revert w2 d2; induction H as [w|s ss w w1 w' d ds Es Hc IH]; intros w2 d2 H2; inversion H2; subst; auto.
  match goal with H3 : s w = Ok (_, _), H5 : called_in_order ss _ _ _ |- _ =>
    rewrite Es in H3; injection H3 as <- <-; destruct (IH _ _ H5) as [-> ->]; auto end.
Qed.

Lemma RunStrategies_spec W (ss : list (Strategy W)) w w' ds :
  RunStrategies ss w = Ok (w', ds) <-> called_in_order ss w w' ds.
Proof.
  unfold RunStrategies. rewrite make_len. cbn [bind]. change 0 with (len (@nil (Strategy W))).
  split; intros H.
  - eapply run_loop with (todo := ss) in H; [|reflexivity|apply repeat_length].
    destruct H as (ds' & Hc & Hr). cbn [fst snd length firstn app] in *. now subst.
  - pose proof H as H'. eapply run_loop_ok with (done := []) (ss := ss) in H; [|reflexivity|apply repeat_length].
    destruct H as (r & Hr). rewrite Hr. pose proof Hr as Hr'.
    eapply run_loop with (todo := ss) in Hr; [|reflexivity|apply repeat_length].
    destruct Hr as (ds' & Hc & E). cbn [fst snd length firstn app] in *. subst.
    destruct (called_det H' Hc) as [_ ->]. reflexivity.
Qed.

Lemma calls_length W (ss : list (Strategy W)) w w' ds : called_in_order ss w w' ds -> length ds = length ss.
Proof. induction 1; cbn; auto. Qed.

(** ** In-place filters *)
Definition sel {A} (d : nat -> bool) (l : list A) (n : nat) : list A :=
  flat_map (fun i => if d i then match nth_error l i with Some x => [x] | None => [] end else []) (seq 0 n).
Lemma sel_S A (d : nat -> bool) (l : list A) n x :
  nth_error l n = Some x -> sel d l (S n) = sel d l n ++ (if d n then [x] else []).
Proof.
  intros H. unfold sel. rewrite seq_S, flat_map_app. cbn [flat_map Nat.add]. rewrite H, app_nil_r. reflexivity.
Qed.
Lemma sel_length A (d : nat -> bool) (l : list A) n : (length (sel d l n) <= n)%nat.
Proof.
  induction n as [|n IH]; [apply le_n|]. unfold sel in *. rewrite seq_S, flat_map_app, app_length.
  cbn [flat_map Nat.add]. destruct (d n), (nth_error l n); cbn [length app]; lia.
Qed.
Lemma sel_In A (d : nat -> bool) (l : list A) n x : In x (sel d l n) -> In x l.
Proof.
  unfold sel. rewrite in_flat_map. intros (i & _ & H). destruct (d i); [|destruct H].
  destruct (nth_error l i) eqn:E; [|destruct H]. destruct H as [<-|[]]. eapply nth_error_In; eauto.
Qed.
Lemma select_sel A (d : nat -> bool) (l : list A) : select d l = sel d l (length l).
Proof. reflexivity. Qed.

Lemma arr_set_same N (m : @Mem N) a l : (a < length (arrs m))%nat -> arr_of (set_arr m a l) a = l.
Proof. intros H. unfold arr_of, set_arr; cbn. now apply nth_upd_eq. Qed.
Lemma arr_set_other N (m : @Mem N) a b l : a <> b -> arr_of (set_arr m a l) b = arr_of m b.
Proof. intros H. unfold arr_of, set_arr; cbn. now apply nth_upd_ne. Qed.

Section Filter.
Context {N : Num}.
Variables (m0 : Mem) (e : MItem) (l : list (nat * Candle)) (d : nat -> bool).
Hypothesis Hshow : shows m0 e l.
Notation a := (mArr e).

Definition Inv (i : nat) (m : Mem) (target : Z) : Prop :=
  only_array a m0 m /\ target = len (sel d l i) /\
  length (arr_of m a) = length (arr_of m0 a) /\
  firstn (length (sel d l i)) (arr_of m a) = map (fun pc => Some (fst pc)) (sel d l i) /\
  forall k, (i <= k)%nat -> nth_error (arr_of m a) k = nth_error (arr_of m0 a) k.

Lemma Inv_0 : Inv 0 m0 0.
Proof. repeat split; auto. Qed.

Lemma show_length : (length l <= length (arr_of m0 a))%nat.
Proof.
  destruct Hshow as (_ & _ & H & _). apply (f_equal (@length _)) in H.
  rewrite firstn_length, map_length in H. lia.
Qed.
Lemma show_nth i p c : nth_error l i = Some (p, c) ->
  nth_error (arr_of m0 a) i = Some (Some p) /\ nth_error (cells m0) p = Some c.
Proof.
  intros H. destruct Hshow as (_ & _ & Hf & HF). split.
  - assert (Hi : (i < length l)%nat) by (apply nth_error_Some; congruence).
    assert (E : nth_error (firstn (length l) (arr_of m0 a)) i = Some (Some p)).
    { rewrite Hf. exact (map_nth_error (fun pc => Some (fst pc)) _ _ H). }
    rewrite <- E. symmetry.
    pose proof (firstn_skipn (length l) (arr_of m0 a)) as S. rewrite <- S at 2.
    rewrite nth_error_app1; [reflexivity|]. rewrite firstn_length. pose proof show_length. lia.
  - rewrite Forall_forall in HF. apply (HF (p, c)). eapply nth_error_In; eauto.
Qed.

Lemma Inv_read i m target p c : Inv i m target -> nth_error l i = Some (p, c) ->
  mget m e (Z.of_nat i) = Ok (Some p) /\ load m (Some p) = Ok c.
Proof.
  intros ((Hc & _) & _ & Hl & _ & Hk) H. destruct (show_nth _ H) as [H1 H2].
  assert (Hi : (i < length l)%nat) by (apply nth_error_Some; congruence).
  split.
  - unfold mget. destruct Hshow as (_ & -> & _). unfold len.
    replace (Z.of_nat i <? Z.of_nat (length l)) with true by (symmetry; apply Z.ltb_lt; lia).
    apply get_ok_iff. split; [lia|]. rewrite Nat2Z.id. rewrite Hk by lia. exact H1.
  - unfold load. rewrite Hc. apply get_ok_iff. split; [lia|]. now rewrite Nat2Z.id.
Qed.

Lemma Inv_skip i m target p c : Inv i m target -> nth_error l i = Some (p, c) -> d i = false -> Inv (S i) m target.
Proof.
  intros (H1 & H2 & H3 & H4 & H5) H Hd. unfold Inv. rewrite (sel_S _ _ _ H), Hd, app_nil_r.
  repeat split; auto; try apply H1. intros k Hk; apply H5; lia.
Qed.

Lemma Inv_keep i m target p c : Inv i m target -> nth_error l i = Some (p, c) -> d i = true ->
  exists m', mset m e target (Some p) = Ok m' /\ Inv (S i) m' (target + 1).
Proof.
  intros (H1 & H2 & H3 & H4 & H5) H Hd.
  assert (Hi : (i < length l)%nat) by (apply nth_error_Some; congruence).
  pose proof (sel_length d l i) as Hs. pose proof show_length as Hsl.
  assert (Ha : (a < length (arrs m))%nat).
  { destruct H1 as (_ & E & _). rewrite E. apply Hshow. }
  unfold mset. replace (target <? mLen e) with true.
  2:{ symmetry; apply Z.ltb_lt. destruct Hshow as (_ & -> & _). subst target. unfold len. lia. }
  rewrite set_ok by (subst target; unfold len; rewrite H3; lia). cbn [bind].
  eexists; split; [reflexivity|]. subst target. replace (Z.to_nat (len (sel d l i))) with (length (sel d l i)) by (unfold len; lia).
  unfold Inv. rewrite (sel_S _ _ _ H), Hd.
  split; [|split; [|split; [|split]]].
  - destruct H1 as (A1 & A2 & A3). split; [exact A1|split].
    + cbn. now rewrite upd_length.
    + intros b Hb. rewrite arr_set_other by auto. now apply A3.
  - rewrite len_app. reflexivity.
  - rewrite arr_set_same by auto. now rewrite upd_length.
  - rewrite arr_set_same by auto. rewrite app_length. cbn [length]. rewrite Nat.add_1_r.
    rewrite (firstn_S_nth _ None) by (rewrite upd_length; lia). rewrite nth_upd_eq by lia.
    rewrite map_app. cbn [map fst]. f_equal. rewrite <- H4.
    clear. generalize (arr_of m a). induction (length (sel d l i)) as [|k IH]; intros [|x r]; cbn; auto. now rewrite IH.
  - intros k Hk. rewrite arr_set_same by auto. rewrite nth_error_upd_ne by lia. apply H5. lia.
Qed.

Lemma Inv_end m target : Inv (length l) m target ->
  only_array a m0 m /\ shows m (with_len e target) (select d l).
Proof.
  intros (H1 & H2 & H3 & H4 & H5). split; [exact H1|]. unfold shows. cbn [mArr mLen with_len].
  rewrite select_sel. split; [|split; [exact H2|split; [exact H4|]]].
  - destruct H1 as (_ & E & _). rewrite E. apply Hshow.
  - rewrite Forall_forall. intros [p c] Hin. apply sel_In in Hin. destruct Hshow as (_ & _ & _ & HF).
    rewrite Forall_forall in HF. destruct H1 as (-> & _). now apply HF.
Qed.
End Filter.

Section InPlace.
Context {N : Num}.

Lemma filter_select A (f : A -> bool) (l : list A) :
  select (fun i => match nth_error l i with Some x => f x | None => false end) l = filter f l.
Proof.
  rewrite select_sel. set (d := fun i => _).
  assert (H : forall l1 l2, l = l1 ++ l2 -> sel d l (length l1) = filter f l1).
  { induction l1 as [|x l1 IH] using rev_ind; intros l2 E; [reflexivity|].
    rewrite app_length. cbn [length]. rewrite Nat.add_1_r.
    assert (Hx : nth_error l (length l1) = Some x).
    { rewrite E, <- app_assoc, nth_error_app2, Nat.sub_diag by lia. reflexivity. }
    rewrite (sel_S _ _ _ Hx). rewrite (IH (x :: l2)) by now rewrite E, <- app_assoc.
    rewrite filter_app. cbn [filter]. unfold d. rewrite Hx. destruct (f x); reflexivity. }
  apply (H l []). now rewrite app_nil_r.
Qed.

Lemma RemoveOutsideRange_spec m e l start end_ :
  shows m e l -> exists m' e',
    RemoveOutsideRange m e start end_ = Ok (m', e') /\
    shows m' e' (filter (fun pc => in_range start end_ (cTime (snd pc))) l) /\
    mArr e' = mArr e /\ only_array (mArr e) m m'.
Proof.
  intros Hs. set (f := fun pc : nat * Candle => _).
  set (d := fun i => match nth_error l i with Some x => f x | None => false end).
  unfold RemoveOutsideRange. assert (Hn : mLen e = len l) by apply Hs. rewrite Hn.
  edestruct (@for_inv_nat0 _ (fun i st => Inv m e l d i (fst st) (snd st)) _ l
    (fun i '(m, target) => keep <- mget m e i ;; c <- load m keep ;;
       if in_range start end_ (cTime c) then m <- mset m e target keep ;; Ok (m, target + 1)
       else Ok (m, target)) (m, 0)) as ([m' t'] & E & HI).
  - apply Inv_0.
  - intros i [m1 t1] Hi HI. cbn [fst snd] in HI.
    destruct (nth_error l i) as [[p c]|] eqn:Ei; [|apply nth_error_None in Ei; lia].
    destruct (Inv_read Hs HI Ei) as [E1 E2]. rewrite E1. cbn [bind]. rewrite E2. cbn [bind].
    assert (Hd : d i = in_range start end_ (cTime c)) by (unfold d; rewrite Ei; reflexivity).
    destruct (in_range start end_ (cTime c)).
    + destruct (Inv_keep Hs HI Ei Hd) as (m2 & E3 & HI2). rewrite E3. cbn [bind].
      eexists; split; [reflexivity|exact HI2].
    + eexists; split; [reflexivity|]. cbn. exact (Inv_skip HI Ei Hd).
  - rewrite E. cbn [bind]. cbn [fst snd] in HI. destruct (Inv_end Hs HI) as [H1 H2].
    exists m', (with_len e t'). split; [reflexivity|]. split; [|split; [reflexivity|exact H1]].
    unfold d in H2. now rewrite filter_select in H2.
Qed.

Lemma is_first_keys (l : list (nat * Candle)) i p c keys :
  nth_error l i = Some (p, c) ->
  (forall t, In t keys <-> exists pc, In pc (firstn i l) /\ cTime (snd pc) = t) ->
  is_first l i = negb (existsb (Z.eqb (cTime c)) keys).
Proof.
  intros E H. unfold is_first. rewrite E. destruct (existsb (Z.eqb (cTime c)) keys) eqn:Ex; cbn [negb].
  - apply existsb_exists in Ex as (t & Hin & Ht). apply Z.eqb_eq in Ht. subst t.
    apply H in Hin as (pc & Hin & Ht). destruct (forallb _ _) eqn:Ef; [|reflexivity].
    rewrite forallb_forall in Ef. specialize (Ef pc Hin). rewrite Ht, Z.eqb_refl in Ef. discriminate.
  - apply forallb_forall. intros pc Hin. apply negb_true_iff, Z.eqb_neq. intros Ht.
    assert (In (cTime c) keys) by (apply H; eauto).
    assert (existsb (Z.eqb (cTime c)) keys = true); [|congruence].
    apply existsb_exists. exists (cTime c). split; [assumption|apply Z.eqb_refl].
Qed.

Lemma RemoveDuplicates_spec m e l :
  shows m e l -> exists m' e',
    RemoveDuplicates m e = Ok (m', e') /\
    shows m' e' (select (is_first l) l) /\ mArr e' = mArr e /\ only_array (mArr e) m m'.
Proof.
  intros Hs. unfold RemoveDuplicates. assert (Hn : mLen e = len l) by apply Hs. rewrite Hn.
  edestruct (@for_inv_nat0 _ (fun i st => let '(m1, t1, keys) := st in
       Inv m e l (is_first l) i m1 t1 /\
       (forall t, In t keys <-> exists pc, In pc (firstn i l) /\ cTime (snd pc) = t)) _ l
    (fun i '(m, target, lookup) => keep <- mget m e i ;; c <- load m keep ;;
       let key := cTime c in
       if negb (existsb (Z.eqb key) lookup) then
         m <- mset m e target keep ;; Ok (m, target + 1, key :: lookup)
       else Ok (m, target, lookup)) (m, 0, [])) as ([[m' t'] keys'] & E & HI).
  - split; [apply Inv_0|]. intros t; cbn. split; [tauto|]. intros (pc & [] & _).
  - intros i [[m1 t1] keys] Hi [HI HK].
    destruct (nth_error l i) as [[p c]|] eqn:Ei; [|apply nth_error_None in Ei; lia].
    destruct (Inv_read Hs HI Ei) as [E1 E2]. rewrite E1. cbn [bind]. rewrite E2. cbn [bind].
    pose proof (is_first_keys _ _ _ Ei HK) as Hd. cbv zeta.
    assert (HS : firstn (S i) l = firstn i l ++ [(p, c)]).
    { rewrite (firstn_S_nth _ (p, c)) by lia. f_equal. f_equal. now apply nth_error_nth. }
    destruct (existsb (Z.eqb (cTime c)) keys) eqn:Ex; cbn [negb] in *.
    + eexists; split; [reflexivity|]. split; [exact (Inv_skip HI Ei Hd)|].
      intros t. rewrite HK, HS. split; intros (pc & Hin & Ht).
      * exists pc. rewrite in_app_iff. auto.
      * apply in_app_iff in Hin as [Hin|[<-|[]]]; [eauto|]. cbn [snd] in Ht. subst t.
        apply existsb_exists in Ex as (t & Hin & Ht). apply Z.eqb_eq in Ht. subst t. now apply HK.
    + destruct (Inv_keep Hs HI Ei Hd) as (m2 & E3 & HI2). rewrite E3. cbn [bind].
      eexists; split; [reflexivity|]. split; [exact HI2|].
      intros t. rewrite HS. cbn [In]. rewrite HK. split.
      * intros [<-|(pc & Hin & Ht)]; [exists (p, c)|exists pc]; rewrite in_app_iff; cbn; auto.
      * intros (pc & Hin & Ht). apply in_app_iff in Hin as [Hin|[<-|[]]]; [right; eauto|left; exact Ht].
  - cbv zeta in E |- *. rewrite E. cbn [bind]. destruct HI as [HI _]. destruct (Inv_end Hs HI) as [H1 H2].
    exists m', (with_len e t'). repeat split; auto; apply H2 || apply H1.
Qed.

(** firsts of firsts *)
Lemma sel_In_firstn A d (l : list A) n x : In x (sel d l n) -> In x (firstn n l).
Proof.
  unfold sel. rewrite in_flat_map. intros (i & Hi & H). apply in_seq in Hi.
  destruct (d i); [|destruct H]. destruct (nth_error l i) eqn:E; [|destruct H]. destruct H as [<-|[]].
  apply nth_error_In with i.
  pose proof (firstn_skipn n l) as S. rewrite <- S in E.
  rewrite nth_error_app1 in E; [exact E|]. rewrite firstn_length.
  assert (i < length l)%nat; [|lia]. rewrite <- S. apply nth_error_Some. congruence.
Qed.

Lemma firsts_NoDup (l : list (nat * Candle)) n : (n <= length l)%nat ->
  NoDup (map (fun pc => cTime (snd pc)) (sel (is_first l) l n)).
Proof.
  induction n as [|n IH]; intros Hn; [constructor|].
  destruct (nth_error l n) as [[p c]|] eqn:En; [|apply nth_error_None in En; lia].
  rewrite (sel_S _ _ _ En). destruct (is_first l n) eqn:Ef; [|rewrite app_nil_r; apply IH; lia].
  rewrite map_app. cbn [map snd]. apply NoDup_rev in IH; [|lia]. rewrite <- map_rev in IH.
  apply (Permutation_NoDup (l := cTime c :: map (fun pc => cTime (snd pc)) (sel (is_first l) l n))).
  - rewrite <- Permutation_cons_append. reflexivity.
  - constructor.
    + rewrite in_map_iff. intros ([p' c'] & Ht & Hin). apply sel_In_firstn in Hin.
      unfold is_first in Ef. rewrite En in Ef. rewrite forallb_forall in Ef. specialize (Ef _ Hin).
      rewrite Ht, Z.eqb_refl in Ef. discriminate.
    + apply NoDup_rev in IH. now rewrite <- map_rev, rev_involutive in IH.
Qed.

Lemma firsts_id (l : list (nat * Candle)) :
  NoDup (map (fun pc => cTime (snd pc)) l) -> select (is_first l) l = l.
Proof.
  intros H. rewrite select_sel.
  assert (G : forall n, (n <= length l)%nat -> sel (is_first l) l n = firstn n l).
  { induction n as [|n IH]; intros Hn; [reflexivity|].
    destruct (nth_error l n) as [[p c]|] eqn:En; [|apply nth_error_None in En; lia].
    rewrite (sel_S _ _ _ En), IH by lia. rewrite (firstn_S_nth _ (p, c)) by lia.
    rewrite (nth_error_nth _ _ (p, c) En).
    assert (E : is_first l n = true); [|now rewrite E].
    unfold is_first. rewrite En. apply forallb_forall. intros pc Hin. apply negb_true_iff, Z.eqb_neq. intros Ht.
    apply In_nth_error in Hin as (k & Hk).
    assert (Hkn : (k < n)%nat).
    { assert (k < length (firstn n l))%nat by (apply nth_error_Some; congruence). rewrite firstn_length in H0. lia. }
    assert (Ek : nth_error l k = Some pc).
    { rewrite <- (firstn_skipn n l). rewrite nth_error_app1; [exact Hk|]. rewrite firstn_length. lia. }
    assert (k = n); [|lia]. eapply NoDup_nth_error; [exact H| |].
    - rewrite map_length. lia.
    - rewrite (map_nth_error _ _ _ Ek), (map_nth_error _ _ _ En). now rewrite Ht. }
  rewrite G by lia. apply firstn_all.
Qed.

Lemma firsts_idem (l : list (nat * Candle)) :
  select (is_first (select (is_first l) l)) (select (is_first l) l) = select (is_first l) l.
Proof. apply firsts_id. rewrite select_sel. apply firsts_NoDup. lia. Qed.

(** ** Copy *)
Lemma firstn_app_exact A (l t : list A) : firstn (length l) (l ++ t) = l.
Proof. rewrite firstn_app, Nat.sub_diag, firstn_all. cbn. apply app_nil_r. Qed.

Lemma RemoveOutsideRangeCopy_spec m e l start end_ :
  shows m e l -> exists m' e' l',
    RemoveOutsideRangeCopy m e start end_ = Ok (m', e') /\
    shows m' e' l' /\
    map snd l' = filter (fun c => in_range start end_ (cTime c)) (map snd l) /\
    mArr e' = length (arrs m) /\ Forall (fun pc => (length (cells m) <= fst pc)%nat) l' /\
    grown m m' /\ shows m' e l.
Proof.
  intros Hs. unfold RemoveOutsideRangeCopy. assert (Hn : mLen e = len l) by apply Hs. rewrite Hn.
  rewrite make_len. cbn [bind].
  set (a := length (arrs m)). set (item := mkMItem _ _ _ _ _ _).
  set (fresh := fun i => combine (seq (length (cells m)) i) (map snd (firstn i l))).
  set (m1 := mkMem (cells m) (arrs m ++ [repeat None (length l)])).
  edestruct (@for_inv_nat0 _ (fun i mm =>
      cells mm = cells m ++ map snd (firstn i l) /\
      arrs mm = arrs m ++ [map (fun k => Some (length (cells m) + k)%nat) (seq 0 i) ++ repeat None (length l - i)])
     _ l
     (fun i mm => p <- mget mm e i ;; c <- load mm p ;;
        let q := length (cells mm) in
        let mm := mkMem (cells mm ++ [c]) (arrs mm) in mset mm item i (Some q)) m1)
    as (m2 & E & HC & HA).
  - cbn. split; [now rewrite app_nil_r|]. now rewrite Nat.sub_0_r.
  - intros i mm Hi [HC HA].
    destruct (nth_error l i) as [[p c]|] eqn:Ei; [|apply nth_error_None in Ei; lia].
    destruct (show_nth Hs _ Ei) as [P1 P2].
    assert (Hae : (mArr e < a)%nat) by apply Hs.
    assert (E1 : mget mm e (Z.of_nat i) = Ok (Some p)).
    { unfold mget. rewrite Hn. unfold len.
      replace (Z.of_nat i <? Z.of_nat (length l)) with true by (symmetry; apply Z.ltb_lt; lia).
      apply get_ok_iff. split; [lia|]. rewrite Nat2Z.id. unfold arr_of. rewrite HA, app_nth1 by exact Hae. exact P1. }
    assert (E2 : load mm (Some p) = Ok c).
    { unfold load. rewrite HC. apply get_app_l. apply get_ok_iff. split; [lia|]. now rewrite Nat2Z.id. }
    rewrite E1. cbn [bind]. rewrite E2. cbn [bind]. cbv zeta.
    assert (Hq : length (cells mm) = (length (cells m) + i)%nat).
    { rewrite HC, app_length, map_length, firstn_length. lia. }
    unfold mset. cbn [mLen mArr item].
    replace (Z.of_nat i <? len l) with true by (symmetry; apply Z.ltb_lt; unfold len; lia).
    assert (Harr : arr_of (mkMem (cells mm ++ [c]) (arrs mm)) a =
                   map (fun k => Some (length (cells m) + k)%nat) (seq 0 i) ++ repeat None (length l - i)).
    { unfold arr_of. cbn [arrs]. rewrite HA, app_nth2 by (unfold a; lia). unfold a. now rewrite Nat.sub_diag. }
    rewrite Harr. rewrite set_ok.
    2:{ unfold len. rewrite app_length, map_length, seq_length, repeat_length. lia. }
    cbn [bind]. rewrite Nat2Z.id. eexists; split; [reflexivity|]. unfold set_arr. cbn [cells arrs]. split.
    + rewrite HC. rewrite (firstn_S_nth _ (p, c)) by lia. rewrite (nth_error_nth _ _ (p, c) Ei).
      rewrite map_app. cbn [map snd]. now rewrite app_assoc.
    + rewrite HA. rewrite upd_app_r by (unfold a; lia). unfold a. rewrite Nat.sub_diag. cbn [upd]. f_equal. f_equal.
      rewrite upd_app_r by (rewrite map_length, seq_length; lia). rewrite map_length, seq_length, Nat.sub_diag.
      replace (length l - i)%nat with (S (length l - S i)) by lia. cbn [repeat upd].
      rewrite seq_S, map_app. cbn [map Nat.add]. rewrite Hq, <- app_assoc. reflexivity.
  - cbv zeta in E |- *. rewrite E. cbn [bind].
    rewrite firstn_all in HC. rewrite Nat.sub_diag in HA. cbn [repeat] in HA. rewrite app_nil_r in HA.
    set (l2 := combine (seq (length (cells m)) (length l)) (map snd l)).
    assert (Hl2 : length l2 = length l) by (unfold l2; rewrite combine_length, seq_length, map_length; lia).
    assert (Hsnd : map snd l2 = map snd l).
    { unfold l2. clear. revert l. intros l. generalize (length (cells m)). induction l as [|x l IH]; intros k; cbn; [reflexivity|].
      now rewrite IH. }
    assert (Hfst : map fst l2 = seq (length (cells m)) (length l)).
    { unfold l2. clear. generalize (length (cells m)). induction l as [|x l IH]; intros k; cbn; [reflexivity|]. now rewrite IH. }
    assert (Hs2 : shows m2 item l2).
    { unfold shows. cbn [mArr mLen item]. split; [|split; [|split]].
      - rewrite HA, app_length. cbn. unfold a. lia.
      - unfold len. now rewrite Hl2.
      - unfold arr_of. rewrite HA, app_nth2 by (unfold a; lia). unfold a. rewrite Nat.sub_diag. cbn [nth].
        rewrite firstn_all2 by (rewrite map_length, seq_length; lia).
        rewrite <- (map_map fst (fun p => Some p)), Hfst.
        rewrite <- (map_map (fun k => (length (cells m) + k)%nat) Some). f_equal.
        clear. generalize (length (cells m)) as b. intros b. generalize (length l) as n.
        induction n as [|n IH]; [reflexivity|]. now rewrite !seq_S, map_app, IH.
      - rewrite Forall_forall. intros [q c] Hin. cbn [fst snd].
        apply In_nth_error in Hin as (k & Hk).
        assert (Hkl : (k < length l)%nat) by (rewrite <- Hl2; apply nth_error_Some; congruence).
        assert (Eq : nth_error (map fst l2) k = Some q) by (erewrite map_nth_error; eauto; reflexivity).
        assert (Ec : nth_error (map snd l2) k = Some c) by (erewrite map_nth_error; eauto; reflexivity).
        rewrite Hsnd in Ec. rewrite Hfst in Eq.
        rewrite nth_error_nth' with (d := 0%nat) in Eq by (rewrite seq_length; lia). rewrite seq_nth in Eq by lia.
        injection Eq as <-. rewrite HC, nth_error_app2 by lia.
        replace (length (cells m) + k - length (cells m))%nat with k by lia. exact Ec. }
    destruct (RemoveOutsideRange_spec start end_ Hs2) as (m3 & e3 & E3 & S3 & A3 & (O1 & O2 & O3)).
    exists m3, e3. eexists. split; [exact E3|]. split; [exact S3|].
    assert (HgA : firstn (length (arrs m)) (arrs m3) = arrs m).
    { apply list_eq_nth with (d := []).
      - rewrite firstn_length. rewrite O2, HA, app_length. cbn. lia.
      - intros k Hk. rewrite firstn_length in Hk. rewrite O2, HA, app_length in Hk.
        assert (Hka : (k < length (arrs m))%nat) by lia.
        rewrite <- (firstn_skipn (length (arrs m)) (arrs m3)) at 2 || idtac.
        assert (E4 : nth k (firstn (length (arrs m)) (arrs m3)) [] = nth k (arrs m3) []).
        { rewrite <- (firstn_skipn (length (arrs m)) (arrs m3)) at 2. rewrite app_nth1; [reflexivity|].
          rewrite firstn_length, O2, HA, app_length. lia. }
        rewrite E4. change (arr_of m3 k = nth k (arrs m) []). rewrite O3 by (cbn; unfold a; lia).
        unfold arr_of. rewrite HA. now apply app_nth1. }
    assert (Hg : grown m m3).
    { split; [|exact HgA]. rewrite O1, HC. apply firstn_app_exact. }
    split; [|split; [|split; [|split]]].
    + rewrite <- Hsnd. clear. induction l2 as [|x l2 IH]; [reflexivity|]. cbn [filter map].
      destruct (in_range start end_ (cTime (snd x))); cbn [map]; now rewrite IH.
    + rewrite A3. reflexivity.
    + rewrite Forall_forall. intros pc Hin. apply filter_In in Hin as [Hin _].
      apply (in_map fst) in Hin. rewrite Hfst in Hin. apply in_seq in Hin. lia.
    + exact Hg.
    + destruct Hs as (S1 & S2 & S4 & S5). destruct Hg as [Hg1 Hg2]. split; [|split; [exact S2|split]].
      * rewrite O2, HA, app_length. unfold a in *. cbn. lia.
      * assert (Ear : arr_of m3 (mArr e) = arr_of m (mArr e)).
        { rewrite O3 by (cbn; unfold a; lia). unfold arr_of. rewrite HA. now apply app_nth1. }
        rewrite Ear. exact S4.
      * rewrite Forall_forall in *. intros pc Hin. specialize (S5 pc Hin). rewrite O1, HC.
        rewrite nth_error_app1; [exact S5|]. apply nth_error_Some. congruence.
Qed.

(** ** Clear *)
Lemma Clear_spec m e l : shows m e l -> exists m',
  Clear m e = Ok (m', with_len e 0) /\ shows m' (with_len e 0) [] /\ only_array (mArr e) m m'.
Proof.
  intros Hs. unfold Clear. assert (Hn : mLen e = len l) by apply Hs. rewrite Hn.
  edestruct (@for_inv_nat0 _ (fun i mm => only_array (mArr e) m mm /\ length (arr_of mm (mArr e)) = length (arr_of m (mArr e))) _ l
     (fun i mm => mset mm e i None) m) as (m' & E & H & _).
  - repeat split; auto.
  - intros i mm Hi [(H1 & H2 & H3) H4]. unfold mset. rewrite Hn.
    replace (Z.of_nat i <? len l) with true by (symmetry; apply Z.ltb_lt; unfold len; lia).
    pose proof (show_length Hs). rewrite set_ok by (unfold len; lia). cbn [bind].
    assert (Ha : (mArr e < length (arrs mm))%nat) by (rewrite H2; apply Hs).
    eexists; split; [reflexivity|]. split; [split; [|split]|].
    + exact H1.
    + cbn. now rewrite upd_length.
    + intros b Hb. rewrite arr_set_other by auto. now apply H3.
    + rewrite arr_set_same by auto. now rewrite upd_length.
  - rewrite E. cbn [bind]. exists m'. split; [reflexivity|]. split; [|exact H].
    split; [|repeat split; auto; constructor]. cbn. destruct H as (_ & -> & _). apply Hs.
Qed.
End InPlace.

Section Statements.
Context {N : Num}.
Lemma firsts_distinct (l : list (nat * Candle)) : NoDup (map (fun pc => cTime (snd pc)) (select (is_first l) l)).
Proof. rewrite select_sel. apply firsts_NoDup. lia. Qed.
Lemma firsts_cover (l : list (nat * Candle)) pc : In pc l ->
  exists pc', In pc' (select (is_first l) l) /\ cTime (snd pc') = cTime (snd pc).
Proof.
  intros Hin. rewrite select_sel.
  assert (H : forall n, (n <= length l)%nat -> forall x, In x (firstn n l) ->
     exists x', In x' (sel (is_first l) l n) /\ cTime (snd x') = cTime (snd x)).
  { induction n as [|n IH]; intros Hn x Hx; [destruct Hx|].
    destruct (nth_error l n) as [[p c]|] eqn:En; [|apply nth_error_None in En; lia].
    rewrite (sel_S _ _ _ En). rewrite (firstn_S_nth _ (p, c)) in Hx by lia.
    rewrite (nth_error_nth _ _ (p, c) En) in Hx. apply in_app_iff in Hx as [Hx|[<-|[]]].
    - destruct (IH ltac:(lia) x Hx) as (x' & H1 & H2). exists x'. split; [apply in_app_iff; auto|auto].
    - destruct (is_first l n) eqn:Ef.
      + exists (p, c). split; [apply in_app_iff; cbn; auto|reflexivity].
      + unfold is_first in Ef. rewrite En in Ef.
        assert (Hex : exists y, In y (firstn n l) /\ cTime (snd y) = cTime c).
        { clear - Ef. induction (firstn n l) as [|y l0 IHl]; cbn in Ef; [discriminate|].
          destruct (Z.eqb_spec (cTime (snd y)) (cTime c)) as [He|He]; cbn in Ef.
          - exists y. cbn. auto.
          - destruct (IHl Ef) as (z & ? & ?). exists z. cbn. auto. }
        destruct Hex as (y & Hy & Ht). destruct (IH ltac:(lia) y Hy) as (x' & H1 & H2).
        exists x'. split; [apply in_app_iff; auto|]. cbn [snd]. congruence. }
  apply (H (length l)); [lia|]. now rewrite firstn_all.
Qed.
Lemma shows_fun m e (l l' : list (nat * Candle)) : shows m e l -> shows m e l' -> l = l'.
Proof.
  intros (_ & L1 & E1 & F1) (_ & L2 & E2 & F2).
  assert (Hl : length l = length l') by (rewrite L1 in L2; unfold len in L2; lia).
  rewrite <- Hl, E1 in E2. clear - E2 F1 F2.
  revert l' E2 F2. induction l as [|[p c] l IH]; intros [|[p' c'] l'] E F2; try discriminate; [reflexivity|].
  injection E as -> E. inversion F1; subst. inversion F2; subst. cbn [fst snd] in *.
  assert (c = c') by congruence. subst. f_equal. now apply IH.
Qed.
Lemma RemoveDuplicates_twice m m1 e e1 (l : list (nat * Candle)) :
  shows m e l -> RemoveDuplicates m e = Ok (m1, e1) ->
  exists m2 e2, RemoveDuplicates m1 e1 = Ok (m2, e2) /\ forall l1, shows m1 e1 l1 -> shows m2 e2 l1.
Proof.
  intros Hs E. destruct (RemoveDuplicates_spec Hs) as (m' & e' & E' & Hs1 & _).
  rewrite E in E'. injection E' as <- <-.
  destruct (RemoveDuplicates_spec Hs1) as (m2 & e2 & E2 & Hs2 & _).
  exists m2, e2. split; [exact E2|]. intros l1 Hl1. rewrite firsts_idem in Hs2.
  now rewrite (shows_fun Hl1 Hs1).
Qed.
Lemma within_in_range start end_ t : in_range start end_ t = within start end_ t.
Proof. unfold in_range, within. now rewrite Z.gtb_ltb, (Z.eqb_sym t). Qed.
Lemma RemoveOutsideRange_within m e (l : list (nat * Candle)) start end_ :
  shows m e l -> exists m' e', RemoveOutsideRange m e start end_ = Ok (m', e') /\
    shows m' e' (filter (fun pc => within start end_ (cTime (snd pc))) l) /\
    mArr e' = mArr e /\ only_array (mArr e) m m'.
Proof.
  intros H. destruct (RemoveOutsideRange_spec start end_ H) as (m' & e' & H1 & H2 & H3).
  exists m', e'. split; [exact H1|]. split; [|exact H3].
  erewrite filter_ext; [exact H2|]. intros pc. cbn. now rewrite within_in_range.
Qed.
Lemma RemoveOutsideRangeCopy_within m e (l : list (nat * Candle)) start end_ :
  shows m e l -> exists m' e' l', RemoveOutsideRangeCopy m e start end_ = Ok (m', e') /\
    shows m' e' l' /\
    map snd l' = filter (fun c => within start end_ (cTime c)) (map snd l) /\
    mArr e' = length (arrs m) /\ Forall (fun pc => (length (cells m) <= fst pc)%nat) l' /\
    grown m m' /\ shows m' e l.
Proof.
  intros H. destruct (RemoveOutsideRangeCopy_spec start end_ H) as (m' & e' & l' & H1 & H2 & H3 & H4).
  exists m', e', l'. split; [exact H1|]. split; [exact H2|]. split; [|exact H4].
  rewrite H3. apply filter_ext. intros c. apply within_in_range.
Qed.
End Statements.
