(** * SmcProofs: lemmas about the model of SmartMoneyConcepts. *)
From Coq Require Import Permutation.
From Verif Require Import Base Num Containers Ta Klines IndBase Order TaTools TaElem TaRange SpecTa TaOrd Smc SpecSmc.
Set Implicit Arguments.
Open Scope Z_scope.

Lemma range_fold A S (f : Z -> A -> S -> S) (l : list A) s :
  range_ l (fun j v s => Ok (f j v s)) s =
  Ok ((fix go j l s := match l with [] => s | v :: l' => go (j + 1) l' (f j v s) end) 0 l s).
Proof.
  unfold range_. set (go := fix go j l s := match l with [] => s | v :: l' => go (j + 1) l' (f j v s) end).
  enough (H : forall l2 l1 s, for_ (len l1) (len (l1 ++ l2)) (fun i st => v <- get (l1 ++ l2) i ;; Ok (f i v st)) s = Ok (go (len l1) l2 s)).
  { apply (H l [] s). }
  clear l s. induction l2 as [|v l2 IH]; intros l1 s.
  - rewrite app_nil_r, for_empty by lia. reflexivity.
  - rewrite for_step by (rewrite len_app, len_cons; pose proof (len_nonneg l2); lia).
    replace (get (l1 ++ v :: l2) (len l1)) with (Ok v).
    2:{ symmetry. apply get_ok_iff. split; [apply len_nonneg|]. unfold len. rewrite Nat2Z.id, nth_error_app2, Nat.sub_diag by lia. reflexivity. }
    cbn [bind]. change (v :: l2) with ([v] ++ l2). rewrite app_assoc. specialize (IH (l1 ++ [v]) (f (len l1) v s)).
    rewrite (len_app l1 [v]) in IH. change (len [v]) with 1 in IH. rewrite IH. cbn [go app]. reflexivity.
Qed.

Lemma NoDup_app_l A (a b : list A) : NoDup (a ++ b) -> NoDup a.
Proof.
  induction a as [|x a IH]; cbn; intros H; [constructor|]. inversion H; subst. constructor; [|auto].
  intros Hi. apply H2. apply in_or_app. now left.
Qed.

Section Blocks.
Context {N : Num}.
Local Notation bkey := block_key.
Lemma bkEqual_iff a b : bkEqual a b = true <-> bkey a = bkey b.
Proof.
  unfold bkEqual, block_key. rewrite andb_true_iff, Bool.eqb_true_iff, Z.eqb_eq. split.
  - intros [-> ->]; reflexivity.
  - intros H; injection H; auto.
Qed.
Lemma bkContains_iff e k : bkContains e k = true <-> In (bkey k) (map bkey e).
Proof.
  induction e as [|x e IH]; cbn [bkContains map In]; [split; [discriminate|contradiction]|].
  destruct (bkEqual x k) eqn:E; [apply bkEqual_iff in E; tauto|].
  rewrite IH. split; [tauto|]. intros [H|H]; [apply bkEqual_iff in H; congruence|exact H].
Qed.
Lemma bkFind_split e k : match bkFind e k with
  | Some x => exists l1 b l2, e = l1 ++ b :: l2 /\ length l1 = x /\ bkey b = bkey k /\ ~ In (bkey k) (map bkey l1)
  | None => ~ In (bkey k) (map bkey e) end.
Proof.
  induction e as [|x e IH]; cbn [bkFind]; [intros []|].
  destruct (bkEqual x k) eqn:E.
  - apply bkEqual_iff in E. exists [], x, e. repeat split; auto.
  - assert (E' : bkey x <> bkey k) by (intros H; apply bkEqual_iff in H; congruence).
    destruct (bkFind e k) as [n|]; cbn [option_map].
    + destruct IH as (l1 & b & l2 & -> & <- & Hb & Hn). exists (x :: l1), b, l2. repeat split; auto.
      cbn [map In]. tauto.
    + cbn [map In]. tauto.
Qed.
Lemma bkRemove_at l1 b l2 k : bkey b = bkey k -> ~ In (bkey k) (map bkey l1) -> bkRemove (l1 ++ b :: l2) k = l1 ++ l2.
Proof.
  intros Hb Hn. unfold bkRemove. pose proof (bkFind_split (l1 ++ b :: l2) k) as H. destruct (bkFind _ k) as [x|].
  - destruct H as (m1 & c & m2 & E & <- & Hc & Hm).
    assert (m1 = l1 /\ c = b /\ m2 = l2) as (-> & -> & ->).
    { clear - E Hb Hn Hc Hm. revert m1 E Hm. induction l1 as [|y l1 IH]; intros [|z m1] E Hm; cbn in *.
      - injection E; auto.
      - injection E as -> E. tauto.
      - injection E as -> E. tauto.
      - injection E as -> E. destruct (IH ltac:(tauto) m1 E ltac:(tauto)) as (-> & -> & ->). auto. }
    rewrite firstn_app, firstn_all, Nat.sub_diag. cbn [firstn]. rewrite app_nil_r. f_equal.
    rewrite skipn_app, skipn_all2 by lia. replace (S (length l1) - length l1)%nat with 1%nat by lia. reflexivity.
  - exfalso. apply H. rewrite map_app, in_app_iff. right. left. exact Hb.
Qed.
Lemma bkRemove_absent e k : ~ In (bkey k) (map bkey e) -> bkRemove e k = [].
Proof.
  intros H. unfold bkRemove. pose proof (bkFind_split e k) as S. destruct (bkFind e k); [|reflexivity].
  destruct S as (l1 & b & l2 & -> & _ & Hb & _). exfalso; apply H. rewrite map_app, in_app_iff. right; left; exact Hb.
Qed.
Definition uniq (e : list Block) : Prop := NoDup (map bkey e).
Lemma uniq_add e k : uniq e -> uniq (bkAdd e k).
Proof.
  intros H. unfold bkAdd. destruct (bkContains e k) eqn:E; [exact H|]. cbn [negb]. constructor; [|exact H].
  intros Hi. apply bkContains_iff in Hi. congruence.
Qed.
Lemma uniq_mid l1 b l2 : uniq (l1 ++ b :: l2) -> uniq (l1 ++ l2) /\ ~ In (bkey b) (map bkey l1) /\ ~ In (bkey b) (map bkey l2).
Proof.
  unfold uniq. rewrite !map_app. cbn [map]. intros H. apply NoDup_remove in H as [H1 H2]. rewrite in_app_iff in H2. tauto.
Qed.
Lemma uniq_remove e k : uniq e -> uniq (bkRemove e k).
Proof.
  intros H. destruct (bkContains e k) eqn:E.
  - apply bkContains_iff in E. apply in_map_iff in E as (b & Eb & Hb).
    apply in_split in Hb as (l1 & l2 & ->). destruct (uniq_mid _ _ _ H) as (H1 & H2 & H3).
    rewrite bkRemove_at; auto. now rewrite <- Eb.
  - rewrite bkRemove_absent; [constructor|]. intros Hi. apply bkContains_iff in Hi. congruence.
Qed.

(** Cleaning keeps, of the first number+1 blocks, those not broken by the close. *)
Definition bad (close : F) (number j : Z) (v : Block) : bool := ob_doomed close v || (j >? number).
Fixpoint sel (close : F) (number j : Z) (l : list Block) : list Block :=
  match l with [] => [] | v :: l' => (if bad close number j v then [v] else []) ++ sel close number (j + 1) l' end.
Fixpoint keep (close : F) (number j : Z) (l : list Block) : list Block :=
  match l with [] => [] | v :: l' => (if bad close number j v then [] else [v]) ++ keep close number (j + 1) l' end.
Lemma removelist_sel close number l : uniq l -> ob_removelist close number l = Ok (sel close number 0 l).
Proof.
  intros U. unfold ob_removelist. rewrite range_fold. f_equal.
  change (sel close number 0 l) with ([] ++ sel close number 0 l).
  enough (H : forall l j rm, uniq l -> (forall v, In v l -> ~ In (bkey v) (map bkey rm)) ->
    (fix go j l s := match l with [] => s | v :: l' => go (j + 1) l'
       ((fun j v rm => let rm := if ob_doomed close v then rm ++ [v] else rm in
          if (j >? number) && negb (bkContains rm v) then rm ++ [v] else rm) j v s) end) j l rm = rm ++ sel close number j l).
  { apply (H l 0 []); [exact U|]. intros v _ []. }
  clear l U. induction l as [|v l IH]; intros j rm U Hd; [cbn [sel]; now rewrite app_nil_r|].
  cbn [sel]. unfold bad. inversion U as [|? ? U1 U2]; subst.
  assert (Hd' : forall w, In w l -> ~ In (bkey w) (map bkey (rm ++ [v]))).
  { intros w Hw. rewrite map_app, in_app_iff. cbn [map In]. intros [Hi|[Hi|[]]].
    - apply (Hd w); [now right|exact Hi].
    - apply U1. rewrite Hi. now apply in_map. }
  destruct (ob_doomed close v); cbn [orb].
  - replace (bkContains (rm ++ [v]) v) with true.
    2:{ symmetry. apply bkContains_iff. rewrite map_app, in_app_iff. right; left; reflexivity. }
    cbn [negb]. rewrite andb_false_r. rewrite IH by assumption. now rewrite <- app_assoc.
  - replace (bkContains rm v) with false.
    2:{ symmetry. apply not_true_is_false. intros E. apply bkContains_iff in E. revert E. apply Hd. now left. }
    cbn [negb]. rewrite andb_true_r. destruct (j >? number).
    + rewrite IH by assumption. now rewrite <- app_assoc.
    + rewrite IH; [reflexivity|assumption|]. intros w Hw. apply Hd. now right.
Qed.
Lemma ob_clean_keep close number l : uniq l -> ob_clean close number l = Ok (keep close number 0 l).
Proof.
  intros U. unfold ob_clean. rewrite removelist_sel by exact U. cbn [bind]. rewrite range_fold. f_equal.
  change (keep close number 0 l) with ([] ++ keep close number 0 l). change l with ([] ++ l) at 2.
  enough (H : forall l pre j k, uniq (pre ++ l) ->
    (fix go j l s := match l with [] => s | v :: l' => go (j + 1) l' ((fun _ v lst => bkRemove lst v) j v s) end) k (sel close number j l) (pre ++ l)
     = pre ++ keep close number j l).
  { apply (H l [] 0 0 U). }
  clear l U. induction l as [|v l IH]; intros pre j k U; [reflexivity|].
  cbn [sel keep]. destruct (bad close number j v); cbn [app].
  - destruct (uniq_mid _ _ _ U) as (U1 & U2 & U3).
    rewrite bkRemove_at by auto. apply IH; exact U1.
  - change (pre ++ v :: l) with (pre ++ [v] ++ l) in *. rewrite app_assoc in U |- *. rewrite IH by exact U.
    now rewrite <- app_assoc.
Qed.
Lemma keep_firstn close number l j : keep close number j l =
  filter (fun v => negb (ob_doomed close v)) (firstn (Z.to_nat (number + 1 - j)) l).
Proof.
  revert j; induction l as [|v l IH]; intros j; [now rewrite firstn_nil|].
  cbn [keep]. rewrite IH. unfold bad. destruct (Z.gtb_spec j number).
  - replace (Z.to_nat (number + 1 - j)) with 0%nat by lia. replace (Z.to_nat (number + 1 - (j + 1))) with 0%nat by lia.
    rewrite orb_true_r. reflexivity.
  - replace (Z.to_nat (number + 1 - j)) with (S (Z.to_nat (number + 1 - (j + 1)))) by lia.
    cbn [firstn filter]. rewrite orb_false_r. destruct (ob_doomed close v); reflexivity.
Qed.
Lemma ob_clean_spec close number l : uniq l -> ob_clean close number l =
  Ok (filter (fun v => negb (ob_doomed close v)) (firstn (Z.to_nat (number + 1)) l)).
Proof. intros U. rewrite ob_clean_keep by exact U. rewrite keep_firstn. do 3 f_equal. lia. Qed.
Lemma uniq_clean (f : Block -> bool) n l : uniq l -> uniq (filter f (firstn n l)).
Proof.
  unfold uniq. intros H. assert (H1 : NoDup (map bkey (firstn n l))).
  { rewrite <- (firstn_skipn n l), map_app in H. now apply NoDup_app_l in H. }
  clear H. induction (firstn n l) as [|x m IH]; [constructor|]. cbn [filter]. inversion H1; subst.
  destruct (f x); cbn [map]; [|auto]. constructor; [|auto]. rewrite in_map_iff in *. intros (y & Hy & Hi). apply filter_In in Hi as [Hi _]. eauto.
Qed.
End Blocks.

(** ** The parts of one bar *)
Section Parts.
Context {N : Num} (O : OrdLaws N).
Local Notation fl := (list F).

Lemma get_firstn A (l : list A) (n : nat) i : i < Z.of_nat n -> get (firstn n l) i = get l i.
Proof.
  intros H. unfold get. destruct (Z.ltb_spec i 0); [reflexivity|].
  assert (E : nth_error (firstn n l) (Z.to_nat i) = nth_error l (Z.to_nat i)).
  { clear - H H0. assert (Hk : (Z.to_nat i < n)%nat) by lia. revert Hk. generalize (Z.to_nat i) as k. clear.
    revert n; induction l as [|x l IH]; intros n k Hk; [now rewrite firstn_nil|]. destruct n; [lia|]. destruct k; [reflexivity|]. cbn. apply IH; lia. }
  now rewrite E.
Qed.
Lemma slice_0 A (l : list A) (i : nat) : (i < length l)%nat -> slice l 0 (Z.of_nat i + 1) = Ok (firstn (S i) l).
Proof.
  intros H. unfold slice. change (0 <=? 0) with true. destruct (Z.leb_spec 0 (Z.of_nat i + 1)); [|lia].
  destruct (Z.leb_spec (Z.of_nat i + 1) (len l)); [|unfold len in *; lia]. cbn [andb]. change (Z.to_nat 0) with 0%nat. cbn [skipn].
  replace (Z.to_nat (Z.of_nat i + 1)) with (S i) by lia. reflexivity.
Qed.
Lemma len_firstn A (l : list A) (i : nat) : (i < length l)%nat -> len (firstn (S i) l) = Z.of_nat i + 1.
Proof. intros H. unfold len. rewrite firstn_length. lia. Qed.

(** draw *)
Lemma draw_ok f y from to (data : list (row SmcVal)) : 0 <= from -> to < len data ->
  exists data', draw f y from to data = Ok data' /\ length data' = length data /\
    forall j r, nth_error data j = Some r -> nth_error data' j =
      Some (if (from <=? Z.of_nat j) && (Z.of_nat j <=? to) then mkRow (rTime r) (put f y (rVal r)) else r).
Proof.
  intros Hf Ht. unfold draw. destruct (Z.le_gt_cases from (to + 1)) as [Hle|Hgt].
  2:{ rewrite for_empty by lia. exists data. repeat split. intros j r Hr.
      destruct (Z.leb_spec from (Z.of_nat j)), (Z.leb_spec (Z.of_nat j) to); try lia; exact Hr. }
  destruct (@for_inv _ (fun i d => length d = length data /\ forall j r, nth_error data j = Some r -> nth_error d j =
      Some (if (from <=? Z.of_nat j) && (Z.of_nat j <? i) then mkRow (rTime r) (put f y (rVal r)) else r)) from (to + 1)
      (fun j data => r <- get data j ;; set data j (mkRow (rTime r) (put f y (rVal r)))) data) as (d & E & Hl & Hd).
  - exact Hle.
  - split; [reflexivity|]. intros j r Hr. destruct (Z.leb_spec from (Z.of_nat j)), (Z.ltb_spec (Z.of_nat j) from); try lia; exact Hr.
  - intros i d Hi (Hl & Hd). destruct (@get_in_range _ data i) as (r & Er); [lia|].
    apply get_ok_iff in Er as [_ Er]. pose proof (Hd _ _ Er) as Er'. rewrite Z2Nat.id in Er' by lia. rewrite Z.ltb_irrefl, andb_false_r in Er'.
    assert (G : get d i = Ok r) by (apply get_ok_iff; split; [lia|exact Er']). rewrite G. cbn [bind].
    rewrite set_ok by (unfold len in *; lia). eexists; split; [reflexivity|]. split; [now rewrite upd_length|].
    intros j r' Hr'. destruct (Nat.eq_dec (Z.to_nat i) j) as [<-|Hne].
    + rewrite nth_error_upd_eq by (unfold len in *; lia). rewrite Er in Hr'. injection Hr' as <-.
      destruct (Z.leb_spec from (Z.of_nat (Z.to_nat i))), (Z.ltb_spec (Z.of_nat (Z.to_nat i)) (i + 1)); try lia. reflexivity.
    + rewrite nth_error_upd_ne by exact Hne. rewrite (Hd _ _ Hr').
      destruct (Z.leb_spec from (Z.of_nat j)), (Z.ltb_spec (Z.of_nat j) i), (Z.ltb_spec (Z.of_nat j) (i + 1)); try lia; reflexivity.
  - exists d. split; [exact E|]. split; [exact Hl|]. intros j r Hr. rewrite (Hd _ _ Hr).
    destruct (Z.leb_spec from (Z.of_nat j)), (Z.ltb_spec (Z.of_nat j) (to + 1)), (Z.leb_spec (Z.of_nat j) to); try lia; reflexivity.
Qed.

(** Highest and Lowest, NaN allowed *)
Lemma flt_irrefl (x : F) : flt x x = false.
Proof.
  destruct (isNaN x) eqn:E; [apply (ol_lt_nan O); now left|]. exact (@le_refl N O x E).
Qed.
Lemma Highest_ok (xs : fl) n : xs <> [] -> exists u, Highest xs n = Ok u /\
  flt u (nth (length xs - 1) xs fzero) = false /\
  forall k, 0 <= k < Z.min n (len xs) -> flt u (nth (Z.to_nat (len xs - 1 - k)) xs fzero) = false.
Proof.
  intros Hne. assert (Hl : 0 < len xs) by (destruct xs; [congruence|rewrite len_cons; pose proof (len_nonneg xs); lia]).
  unfold Highest. rewrite (@get_nth _ xs (len xs - 1) fzero) by lia. cbn [bind].
  replace (Z.to_nat (len xs - 1)) with (length xs - 1)%nat by (unfold len; lia).
  set (a := nth (length xs - 1) xs fzero).
  destruct (@for_inv _ (fun i r => flt r a = false /\ forall k, 0 <= k < i -> flt r (nth (Z.to_nat (len xs - 1 - k)) xs fzero) = false)
    0 (Z.max 0 (Z.min n (len xs))) (fun k result => v <- get xs (len xs - 1 - k) ;; Ok (if result <~ v then v else result)) a) as (u & E & H1 & H2).
  - lia.
  - split; [apply flt_irrefl|]. intros; lia.
  - intros i r Hi (H1 & H2). rewrite (@get_nth _ xs (len xs - 1 - i) fzero) by lia. cbn [bind].
    eexists; split; [reflexivity|]. set (v := nth _ xs fzero).
    destruct (r <~ v) eqn:Erv; split.
    + destruct (flt v a) eqn:Eva; [|reflexivity]. rewrite (@lt_trans N O r v a Erv Eva) in H1. discriminate.
    + intros k Hk. destruct (Z.eq_dec k i) as [->|]; [apply flt_irrefl|].
      match goal with |- flt _ ?q = _ => destruct (flt v q) eqn:Evq; [|reflexivity]; pose proof (@lt_trans N O r v q Erv Evq) as E' end.
      rewrite H2 in E' by lia. discriminate.
    + exact H1.
    + intros k Hk. destruct (Z.eq_dec k i) as [->|]; [exact Erv|]. apply H2; lia.
  - exists u. split; [|split; [exact H1|intros; apply H2; lia]].
    rewrite <- E. unfold for_. f_equal. lia.
Qed.
Lemma Lowest_ok (xs : fl) n : xs <> [] -> exists u, Lowest xs n = Ok u /\
  flt (nth (length xs - 1) xs fzero) u = false /\
  forall k, 0 <= k < Z.min n (len xs) -> flt (nth (Z.to_nat (len xs - 1 - k)) xs fzero) u = false.
Proof.
  intros Hne. assert (Hl : 0 < len xs) by (destruct xs; [congruence|rewrite len_cons; pose proof (len_nonneg xs); lia]).
  unfold Lowest. rewrite (@get_nth _ xs (len xs - 1) fzero) by lia. cbn [bind].
  replace (Z.to_nat (len xs - 1)) with (length xs - 1)%nat by (unfold len; lia).
  set (a := nth (length xs - 1) xs fzero).
  destruct (@for_inv _ (fun i r => flt a r = false /\ forall k, 0 <= k < i -> flt (nth (Z.to_nat (len xs - 1 - k)) xs fzero) r = false)
    0 (Z.max 0 (Z.min n (len xs))) (fun k result => v <- get xs (len xs - 1 - k) ;; Ok (if v <~ result then v else result)) a) as (u & E & H1 & H2).
  - lia.
  - split; [apply flt_irrefl|]. intros; lia.
  - intros i r Hi (H1 & H2). rewrite (@get_nth _ xs (len xs - 1 - i) fzero) by lia. cbn [bind].
    eexists; split; [reflexivity|]. set (v := nth _ xs fzero).
    destruct (v <~ r) eqn:Erv; split.
    + destruct (flt a v) eqn:Eva; [|reflexivity]. rewrite (@lt_trans N O a v r Eva Erv) in H1. discriminate.
    + intros k Hk. destruct (Z.eq_dec k i) as [->|]; [apply flt_irrefl|].
      match goal with |- flt ?q _ = _ => destruct (flt q v) eqn:Evq; [|reflexivity]; pose proof (@lt_trans N O q v r Evq Erv) as E' end.
      rewrite H2 in E' by lia. discriminate.
    + exact H1.
    + intros k Hk. destruct (Z.eq_dec k i) as [->|]; [exact Erv|]. apply H2; lia.
  - exists u. split; [|split; [exact H1|intros; apply H2; lia]].
    rewrite <- E. unfold for_. f_equal. lia.
Qed.
Lemma not_reached (u h q : F) : flt u h = true -> flt u q = false -> fle h q = false.
Proof.
  intros H1 H2. destruct (isNaN q) eqn:E; [apply (ol_lt_nan O); now right|].
  destruct (@lt_nn N O _ _ H1) as [Nu Nh]. rewrite (ol_le O) by assumption.
  destruct (flt q h) eqn:E'; [reflexivity|]. rewrite (@ol_ntrans N O u q h Nu E Nh H2 E') in H1. discriminate.
Qed.
Lemma not_reached' (u l q : F) : flt l u = true -> flt q u = false -> fle q l = false.
Proof.
  intros H1 H2. destruct (isNaN q) eqn:E; [apply (ol_lt_nan O); now left|].
  destruct (@lt_nn N O _ _ H1) as [Nl Nu]. rewrite (ol_le O) by assumption.
  destruct (flt l q) eqn:E'; [reflexivity|]. rewrite (@ol_ntrans N O l q u Nl E Nu E' H2) in H1. discriminate.
Qed.
Lemma feq_zero : feq (fzero : F) fzero = true.
Proof. apply (feq_refl O), (ol_zero O). Qed.

Lemma swings_ok (hs ls : fl) (i n : nat) os : (i < length hs)%nat -> (i < length ls)%nat ->
  exists top btm os', swings (firstn (S i) hs) (firstn (S i) ls) (Z.of_nat n) os = Ok (top, btm, os') /\
    (feq top fzero = false -> exists k, i = (k + n)%nat /\ top = nth k hs fzero /\ swing_high hs n k) /\
    (feq btm fzero = false -> exists k, i = (k + n)%nat /\ btm = nth k ls fzero /\ swing_low ls n k).
Proof.
  intros Hh Hl. unfold swings.
  assert (Lh : length (firstn (S i) hs) = S i) by (rewrite firstn_length; lia).
  assert (Ll : length (firstn (S i) ls) = S i) by (rewrite firstn_length; lia).
  destruct (@Highest_ok (firstn (S i) hs) (Z.of_nat n)) as (u & Eu & U1 & U2); [intros E; rewrite E in Lh; discriminate|].
  destruct (@Lowest_ok (firstn (S i) ls) (Z.of_nat n)) as (w & Ew & W1 & W2); [intros E; rewrite E in Ll; discriminate|].
  rewrite Eu, Ew. cbn [bind]. unfold len in *. rewrite Lh, Ll in *.
  assert (Gh : forall k, (k <= i)%nat -> nth k (firstn (S i) hs) fzero = nth k hs fzero) by (intros; apply nth_firstn_lt; lia).
  assert (Gl : forall k, (k <= i)%nat -> nth k (firstn (S i) ls) fzero = nth k ls fzero) by (intros; apply nth_firstn_lt; lia).
  replace (S i - 1)%nat with i in * by lia. rewrite Gh in U1 by lia. rewrite Gl in W1 by lia.
  replace (Z.of_nat (S i) - 1) with (Z.of_nat i) by lia. rewrite !get_nat with (d := fzero) by lia. cbn [bind].
  replace (Z.of_nat (S i) - Z.of_nat n - 1 >=? 0) with (n <=? i)%nat
    by (destruct (Nat.leb_spec n i), (Z.geb_spec (Z.of_nat (S i) - Z.of_nat n - 1) 0); try lia; reflexivity).
  rewrite Gh, Gl by lia.
  destruct (Nat.leb_spec n i) as [Hn|Hn].
  - replace (Z.of_nat (S i) - Z.of_nat n - 1) with (Z.of_nat (i - n)) by lia.
    rewrite !get_nat with (d := fzero) by lia. cbn [bind]. rewrite Gh, Gl by lia.
    do 3 eexists. split; [reflexivity|]. split.
    + intros Ht. destruct (nth (i - n) hs fzero >~ u) eqn:E1.
      2:{ exfalso. revert Ht. destruct (nth (i - n) ls fzero <~ w); cbn [Z.eqb andb].
          - rewrite feq_zero. discriminate.
          - destruct (os =? 0); cbn [andb negb]; rewrite feq_zero; discriminate. }
      revert Ht. rewrite Z.eqb_refl. destruct (os =? 0); cbn [andb negb]; [rewrite feq_zero; discriminate|]. intros _.
      exists (i - n)%nat. split; [lia|]. split; [reflexivity|]. split; [lia|]. intros q Hq.
      eapply not_reached; [exact E1|]. specialize (U2 (Z.of_nat (i - q)) ltac:(lia)).
      replace (Z.to_nat (Z.of_nat (S i) - 1 - Z.of_nat (i - q))) with q in U2 by lia. rewrite Gh in U2 by lia. exact U2.
    + intros Ht. destruct (nth (i - n) hs fzero >~ u) eqn:E1.
      { exfalso. revert Ht. cbn [Z.eqb andb]. rewrite feq_zero. discriminate. }
      destruct (nth (i - n) ls fzero <~ w) eqn:E2.
      2:{ exfalso. revert Ht. destruct (os =? 1); cbn [andb negb]; rewrite feq_zero; discriminate. }
      revert Ht. rewrite Z.eqb_refl. destruct (os =? 1); cbn [andb negb]; [rewrite feq_zero; discriminate|]. intros _.
      exists (i - n)%nat. split; [lia|]. split; [reflexivity|]. split; [lia|]. intros q Hq.
      eapply not_reached'; [exact E2|]. specialize (W2 (Z.of_nat (i - q)) ltac:(lia)).
      replace (Z.to_nat (Z.of_nat (S i) - 1 - Z.of_nat (i - q))) with q in W2 by lia. rewrite Gl in W2 by lia. exact W2.
  - cbn [bind]. rewrite U1, W1. do 3 eexists. split; [reflexivity|]. split; intros Ht; exfalso; revert Ht;
    [destruct (os =? 0)|destruct (os =? 1)]; cbn [andb negb]; rewrite feq_zero; discriminate.
Qed.

Lemma fle_swings_neg (hs ls : fl) n os : n < 0 -> swings hs ls n os = Panic.
Proof.
  intros Hn. unfold swings. destruct (Highest hs n); [|reflexivity]. cbn [bind]. destruct (Lowest ls n); [|reflexivity]. cbn [bind].
  destruct (get hs (len hs - 1)); [|reflexivity]. cbn [bind]. pose proof (len_nonneg hs).
  destruct (Z.geb_spec (len hs - n - 1) 0); [|lia]. rewrite get_out by lia. reflexivity.
Qed.

(** obCoord *)
Lemma ob_scan_ok useMax (i : nat) loc (hs ls atr : fl) idxPrev : (1 <= i)%nat ->
  length hs = S i -> length ls = S i -> length atr = S i -> 0 <= loc -> 0 <= idxPrev <= Z.of_nat i ->
  exists idx idx', ob_scan useMax (Z.of_nat i) loc hs ls atr idxPrev = Ok (idx, idx') /\ 0 <= idx <= Z.of_nat i /\ 0 <= idx' <= Z.of_nat i.
Proof.
  intros Hi Hh Hl Ha H0 Hp. unfold ob_scan.
  destruct (@for_inv _ (fun _ (s : F * F * Z * Z) => let '(_, _, idx, idx') := s in 0 <= idx <= Z.of_nat i /\ 0 <= idx' <= Z.of_nat i)
    0 (Z.max 0 (Z.of_nat i - loc + 1)) (ob_step useMax (Z.of_nat i) hs ls atr) (ofZ 99999999, ofZ 0, 1, idxPrev)) as ([[[mn mx] idx] idx'] & E & H1 & H2).
  - lia.
  - split; lia.
  - intros k [[[mn mx] idx] idx'] Hk (H1 & H2). unfold ob_step. cbn zeta.
    rewrite !(@get_nth _ _ (Z.of_nat i - k) fzero) by (unfold len; lia). cbn [bind].
    destruct (_ <~ _); [|eexists; split; [reflexivity|]; exact (conj H1 H2)].
    destruct useMax; (eexists; split; [reflexivity|]); cbv beta iota; match goal with |- context [?a ==~ ?b] => destruct (a ==~ b) end; split; lia.
  - exists idx, idx'. split; [|auto].
    unfold for_ in *. replace (Z.to_nat (Z.of_nat i - loc + 1 - 0)) with (Z.to_nat (Z.max 0 (Z.of_nat i - loc + 1) - 0)) by lia.
    rewrite E. reflexivity.
Qed.
End Parts.
