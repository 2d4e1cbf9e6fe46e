(** * TaOrd: moving extremes, Highest/Lowest, pivots. *)
From Coq Require Import Permutation.
From Verif Require Import Base Num XReal Order Containers BstProofs Ta TaTools TaElem SpecTa.
Set Implicit Arguments.

Lemma skipn_In A (l : list A) n x : In x (skipn n l) -> In x l.
Proof. intros H. rewrite <- (firstn_skipn n l). apply in_or_app. now right. Qed.
Lemma firstn_In A (l : list A) n x : In x (firstn n l) -> In x l.
Proof. intros H. rewrite <- (firstn_skipn n l). apply in_or_app. now left. Qed.
Lemma nth_skipn A (l : list A) n k d : nth k (skipn n l) d = nth (n + k) l d.
Proof. revert l; induction n as [|n IH]; intros l; [reflexivity|]. destruct l; cbn [skipn Nat.add nth]; [now destruct k|apply IH]. Qed.

Section Ord.
Context {N : Num} (O : OrdLaws N).
Notation fl := (list F).

Lemma cmpF_ok (v w : F) : nn v -> nn w -> cmpF v w = Ok (if flt v w then -1 else if flt w v then 1 else 0).
Proof. reflexivity. Qed.

Notation wfF := (wf (@nn N) flt).

Lemma ins_spec t v : wfF t -> nn v ->
  exists t', tInsert cmpF t v = Ok t' /\ wfF t' /\ Permutation (elems t') (v :: elems t).
Proof. apply (@tInsert_spec F cmpF nn flt cmpF_ok (ol_asym O)). Qed.
Lemma inss_spec vs t : wfF t -> Forall nn vs ->
  exists t', tInserts cmpF t vs = Ok t' /\ wfF t' /\ Permutation (elems t') (rev vs ++ elems t).
Proof. apply (@tInserts_spec F cmpF nn flt cmpF_ok (ol_asym O)). Qed.
Lemma rem_spec t v : wfF t -> nn v ->
  exists t' b, tRemove cmpF t v = Ok (t', b) /\ wfF t' /\
    (b = true -> exists w, veq flt v w /\ Permutation (elems t) (w :: elems t')) /\
    (b = false -> t' = t /\ forall w, In w (elems t) -> ~ veq flt v w).
Proof. apply (@tRemove_spec F cmpF nn flt cmpF_ok (ol_ntrans O)). Qed.

(** Same bag up to float equality (+0 and -0 are equal). *)
Definition feqP (x y : F) : Prop := feq x y = true.
Definition simeq (a b : fl) : Prop := exists c, Permutation a c /\ Forall2 feqP c b.

Lemma feq_sym x y : feqP x y -> feqP y x.
Proof.
  intros H. destruct (feq_nn O _ _ H) as [Hx Hy]. apply (feq_le O) in H; auto. apply (feq_le O); tauto.
Qed.
Lemma feq_trans x y z : feqP x y -> feqP y z -> feqP x z.
Proof.
  intros H1 H2. destruct (feq_nn O _ _ H1) as [Hx Hy]. destruct (feq_nn O _ _ H2) as [_ Hz].
  apply (feq_le O) in H1; auto. apply (feq_le O) in H2; auto. apply (feq_le O); auto. destruct H1, H2.
  split; eapply (le_trans O) with (y := y); auto.
Qed.
Lemma veq_feq x y : nn x -> nn y -> veq flt x y <-> feqP x y.
Proof. intros Hx Hy. unfold veq, feqP. rewrite (feq_le O) by auto. unfold le. tauto. Qed.

Lemma simeq_perm_l a a' b : Permutation a a' -> simeq a b -> simeq a' b.
Proof. intros P (c & Pc & F2). exists c; split; [|exact F2]. now rewrite <- P. Qed.
Lemma simeq_cons a b x : nn x -> simeq a b -> simeq (x :: a) (b ++ [x]).
Proof.
  intros Hx (c & P & H). exists (c ++ [x]). split.
  - rewrite P. apply Permutation_cons_append.
  - apply Forall2_app; [exact H|]. constructor; [apply (feq_refl O); exact Hx|constructor].
Qed.
Lemma simeq_in_l a b x : simeq a b -> In x a -> exists y, In y b /\ feqP x y.
Proof.
  intros (c & P & H) Hx. apply (Permutation_in _ P) in Hx. clear P. induction H as [|u w c b Hu H IH]; [destruct Hx|].
  destruct Hx as [->|Hx]; [exists w; split; [now left|exact Hu]|].
  destruct (IH Hx) as (y & Iy & Ey). exists y; split; [now right|exact Ey].
Qed.
Lemma simeq_in_r a b y : simeq a b -> In y b -> exists x, In x a /\ feqP x y.
Proof.
  intros (c & P & H) Hy. apply Permutation_sym in P.
  enough (exists x, In x c /\ feqP x y) as (x & Ix & Ex) by (exists x; split; [eapply Permutation_in; eauto|exact Ex]).
  clear P. induction H as [|u w c b Hu H IH]; [destruct Hy|].
  destruct Hy as [->|Hy]; [exists u; split; [now left|exact Hu]|].
  destruct (IH Hy) as (x & Ix & Ex). exists x; split; [now right|exact Ex].
Qed.

Arguments simeq_in_l [a b x].
Arguments simeq_in_r [a b y].
Lemma simeq_remove a a' old b w : simeq a (old :: b) -> Permutation a (w :: a') -> feqP old w -> simeq a' b.
Proof.
  intros (c & P & H) Pw Hw. inversion H as [|c0 ? c' ? H0 H']; subst.
  assert (Q : Permutation (c0 :: c') (w :: a')) by (rewrite <- P; exact Pw).
  assert (Iw : In w (c0 :: c')) by (eapply Permutation_in; [apply Permutation_sym; exact Q|now left]).
  destruct Iw as [->|Iw].
  - apply Permutation_cons_inv in Q. exists c'; split; [now symmetry|exact H'].
  - apply in_split in Iw as (c1 & c2 & ->).
    apply Forall2_app_inv_l in H' as (b1 & b2 & F1 & F2 & ->).
    inversion F2 as [|? y ? b2' Hy F2']; subst.
    exists (c1 ++ c0 :: c2). split.
    + assert (Q2 : Permutation (w :: a') (w :: (c0 :: c1 ++ c2))).
      { rewrite <- Q. rewrite <- Permutation_middle. apply perm_swap. }
      apply Permutation_cons_inv in Q2. rewrite Q2. apply Permutation_middle.
    + apply Forall2_app; [exact F1|]. constructor; [|exact F2'].
      eapply feq_trans; [exact H0|]. eapply feq_trans; [exact Hw|exact Hy].
Qed.

Arguments simeq_remove [a a' old b w].
(** ** The moving extremum *)
Section Moving.
Variable pick : tree F -> option F.
Variable good : F -> F -> Prop.     (* good m y: y does not beat m *)
Hypothesis good_eq : forall m y z, nn m -> nn y -> nn z -> good m y -> feqP y z -> good m z.
Hypothesis good_eq_l : forall m m' y, nn m -> nn m' -> nn y -> good m y -> feqP m m' -> good m' y.
Hypothesis good_anti : forall m y, nn m -> nn y -> good m y -> good y m -> feqP m y.
Hypothesis pick_spec : forall t, wfF t ->
  match pick t with None => elems t = [] | Some m => In m (elems t) /\ forall y, In y (elems t) -> good m y end.

Definition best (m : F) (l : fl) : Prop :=
  (exists x, In x l /\ (m ==~ x) = true) /\ forall x, In x l -> good m x.

Lemma pick_best t w : wfF t -> simeq (elems t) w -> w <> [] -> exists m, pick t = Some m /\ best m w.
Proof.
  intros Ht Hs Hw. pose proof (pick_spec t Ht) as H. destruct (pick t) as [m|].
  - destruct H as [Hm Hg]. exists m; split; [reflexivity|]. split.
    + destruct (simeq_in_l Hs Hm) as (y & Iy & Ey). exists y; auto.
    + intros x Hx. destruct (simeq_in_r Hs Hx) as (y & Iy & Ey).
      destruct (feq_nn O _ _ Ey). apply (@good_eq m y x); auto. eapply wf_dom; [exact Ht|exact Hm].
  - exfalso. destruct w as [|x w]; [congruence|].
    destruct (@simeq_in_r _ _ x Hs (or_introl eq_refl)) as (y & Iy & _). rewrite H in Iy. destruct Iy.
Qed.

Definition Wn (xs : fl) (p i : nat) : fl := skipn (i - p) (firstn i xs).

Lemma moving_best (p : nat) xs : (1 <= p)%nat -> no_nan xs ->
  exists r, moving pick (Z.of_nat p) xs = Ok r /\ length r = length xs /\
    forall i, (i < length xs)%nat -> best (nth i r fzero) (window xs i p).
Proof.
  intros Hp Hnn. unfold moving. rewrite make_len; cbn [bind]. rewrite make_ok by lia. cbn [bind].
  rewrite Nat2Z.id.
  set (I := fun (i : nat) (s : tree F * fl * fl) => let '(t, buf, r) := s in
     wfF t /\ simeq (elems t) (Wn xs p i) /\ length buf = p /\
     (forall j, (j < i)%nat -> (i <= j + p)%nat -> nth (j mod p) buf fzero = nth j xs fzero) /\
     length r = length xs /\ (forall k, (k < i)%nat -> best (nth k r fzero) (window xs k p))).
  destruct (@for_inv_nat0 _ I F xs
    (fun i '(t, buffer, r) =>
        v <- get xs i;; t <- tInsert cmpF t v;;
        t <- (if i >=? Z.of_nat p then m <- zmod i (Z.of_nat p);; old <- get buffer m;;
               '(t, _) <- tRemove cmpF t old;; Ok t else Ok t);;
        m <- zmod i (Z.of_nat p);; buffer <- set buffer m v;;
        x <- assertF (pick t);; r <- set r i x;; Ok (t, buffer, r))
    (Leaf, repeat fzero p, repeat fzero (length xs))) as ([[t buf] r] & E & HI).
  - unfold I. split; [exact Logic.I|]. split; [unfold Wn; cbn; exists []; split; constructor|].
    split; [apply repeat_length|]. split; [intros; lia|]. split; [apply repeat_length|]. intros; lia.
  - intros i [[t buf] r] Hi (Ht & Hs & Hb & Hbuf & Hr & Hout).
    set (v := nth i xs fzero).
    assert (Hv : nn v) by (unfold no_nan in Hnn; rewrite Forall_forall in Hnn; apply Hnn, nth_In; exact Hi).
    rewrite (@get_nat _ xs i fzero) by exact Hi. cbn [bind]. fold v.
    destruct (ins_spec t Ht Hv) as (t1 & E1 & Ht1 & P1). rewrite E1; cbn [bind].
    assert (Hs1 : simeq (elems t1) (Wn xs p i ++ [v])).
    { eapply simeq_perm_l; [apply Permutation_sym; exact P1|]. now apply simeq_cons. }
    assert (Ew : window xs i p = if (p <=? i)%nat then tl (Wn xs p i ++ [v]) else Wn xs p i ++ [v]).
    { unfold window, Wn. rewrite (@firstn_S_nth _ xs i fzero) by exact Hi. fold v.
      destruct (Nat.leb_spec p i) as [Hle|Hle].
      - replace (S i - p)%nat with (i - p + 1)%nat by lia. rewrite skipn_app, firstn_length.
        replace (i - p + 1 - Nat.min i (length xs))%nat with 0%nat by lia. cbn [skipn].
        rewrite <- skipn_skipn_add.
        assert (L : length (skipn (i - p) (firstn i xs)) = p) by (rewrite skipn_length, firstn_length; lia).
        destruct (skipn (i - p) (firstn i xs)); [cbn in L; lia|]. reflexivity.
      - replace (S i - p)%nat with 0%nat by lia. replace (i - p)%nat with 0%nat by lia. reflexivity. }
    assert (Ez : zmod (Z.of_nat i) (Z.of_nat p) = Ok (Z.of_nat (i mod p))).
    { unfold zmod. destruct (Z.eqb_spec (Z.of_nat p) 0); [lia|].
      rewrite Z.rem_mod_nonneg by lia. now rewrite Nat2Z.inj_mod. }
    assert (Hmod : (i mod p < p)%nat) by (apply Nat.mod_upper_bound; lia).
    assert (Hstep : exists t2, (if Z.of_nat i >=? Z.of_nat p then m <- zmod (Z.of_nat i) (Z.of_nat p);; old <- get buf m;;
               '(t, _) <- tRemove cmpF t1 old;; Ok t else Ok t1) = Ok t2 /\ wfF t2 /\ simeq (elems t2) (window xs i p)).
    { destruct (Z.geb_spec (Z.of_nat i) (Z.of_nat p)) as [Hge|Hlt].
      - rewrite Ez; cbn [bind]. rewrite (@get_nat _ buf _ fzero) by lia. cbn [bind].
        assert (Eold : nth (i mod p) buf fzero = nth (i - p) xs fzero).
        { rewrite <- (Hbuf (i - p)%nat) by lia. f_equal.
          replace i with (i - p + 1 * p)%nat at 1 by lia. apply Nat.mod_add. lia. }
        rewrite Eold. set (old := nth (i - p) xs fzero).
        assert (Hold : nn old) by (unfold no_nan in Hnn; rewrite Forall_forall in Hnn; apply Hnn, nth_In; lia).
        assert (EW : Wn xs p i ++ [v] = old :: window xs i p).
        { rewrite Ew. destruct (Nat.leb_spec p i); [|lia]. unfold Wn.
          rewrite (@skipn_S_nth _ (firstn i xs) (i - p) fzero) by (rewrite firstn_length; lia).
          cbn [app tl]. f_equal. rewrite nth_firstn_lt by lia. reflexivity. }
        rewrite EW in Hs1.
        destruct (rem_spec t1 Ht1 Hold) as (t2 & b & E2 & Ht2 & Htrue & Hfalse). rewrite E2; cbn [bind].
        exists t2; split; [reflexivity|]. split; [exact Ht2|].
        destruct b.
        + destruct (Htrue eq_refl) as (w & Hw & Pw).
          assert (nn w) by (eapply wf_dom; [exact Ht1|]; eapply Permutation_in; [apply Permutation_sym; exact Pw|now left]).
          eapply simeq_remove; [exact Hs1|exact Pw|]. now apply veq_feq.
        + destruct (Hfalse eq_refl) as [_ Hno]. exfalso.
          destruct (@simeq_in_r _ _ old Hs1 (or_introl eq_refl)) as (w & Iw & Ew').
          assert (Nw : nn w) by (destruct (feq_nn O _ _ Ew'); assumption).
          apply (Hno w Iw). apply veq_feq; auto. now apply feq_sym.
      - exists t1; split; [reflexivity|]. split; [exact Ht1|]. rewrite Ew.
        destruct (Nat.leb_spec p i); [lia|]. exact Hs1. }
    destruct Hstep as (t2 & E2 & Ht2 & Hs2). rewrite E2; cbn [bind]. rewrite Ez; cbn [bind].
    rewrite set_ok by (unfold len; lia). cbn [bind].
    destruct (@pick_best t2 (window xs i p) Ht2 Hs2) as (m & Em & Hm).
    { intros Z. apply (f_equal (@length F)) in Z. rewrite window_length in Z by exact Hi. change (length (@nil F)) with 0%nat in Z. lia. }
    rewrite Em; cbn [assertF bind]. rewrite set_ok by (unfold len; lia). cbn [bind].
    eexists; split; [reflexivity|]. unfold I. rewrite !Nat2Z.id. split; [exact Ht2|]. split; [exact Hs2|]. split; [now rewrite upd_length|]. split; [|split].
    + intros j Hj1 Hj2. destruct (Nat.eq_dec j i) as [->|Hne].
      * apply nth_upd_eq. lia.
      * rewrite nth_upd_ne.
        { apply Hbuf; lia. }
        intros Heq. pose proof (Nat.div_mod i p ltac:(lia)). pose proof (Nat.div_mod j p ltac:(lia)).
        rewrite Heq in *. assert (i / p <> j / p)%nat by (intros Hq; rewrite Hq in *; lia).
        assert (p * (j / p) < p * (i / p))%nat by lia. assert (j / p < i / p)%nat by nia.
        assert (p * (j / p) + p <= p * (i / p))%nat by nia. lia.
    + now rewrite upd_length.
    + intros k Hk. destruct (Nat.eq_dec k i) as [->|Hne].
      * rewrite nth_upd_eq by lia. exact Hm.
      * rewrite nth_upd_ne by lia. apply Hout. lia.
  - destruct HI as (_ & _ & _ & _ & Hr & Hout). rewrite E. cbn [bind]. exists r. auto.
Qed.

Lemma moving_zero xs : xs <> [] -> moving pick 0 xs = Panic.
Proof.
  intros Hx. unfold moving. rewrite make_len; cbn [bind]. rewrite make_ok by lia. cbn [bind].
  rewrite for_first_panic; [reflexivity|now apply len_pos|].
  destruct (get xs 0); cbn [bind]; [|reflexivity].
  destruct (tInsert cmpF Leaf a); cbn [bind]; reflexivity.
Qed.
Lemma moving_neg p xs : p < 0 -> moving pick p xs = Panic.
Proof. intros Hp. unfold moving. rewrite make_len; cbn [bind]. now rewrite make_neg. Qed.
Lemma moving_nil p : 0 <= p -> moving pick p [] = Ok [].
Proof. intros Hp. unfold moving. rewrite make_len; cbn [bind]. now rewrite make_ok by lia. Qed.

(** pivots *)
Lemma simeq_of_perm a b : Forall nn b -> Permutation a b -> simeq a b.
Proof.
  intros Hb P. exists b. split; [exact P|]. clear P. induction Hb; constructor; auto; now apply (feq_refl O).
Qed.

Lemma pivots_spec (l r : nat) xs : no_nan xs ->
  exists pv, pivots pick xs (Z.of_nat l) (Z.of_nat r) = Ok pv /\ length pv = length xs /\
    forall i, (i < length xs)%nat ->
      ((i < l + r)%nat -> nth i pv fzero = fzero) /\
      ((l + r <= i)%nat ->
        (best (nth (i - r) xs fzero) (window xs i (S (l + r))) -> feqP (nth i pv fzero) (nth (i - r) xs fzero)) /\
        (~ best (nth (i - r) xs fzero) (window xs i (S (l + r))) -> nth i pv fzero = fzero)).
Proof.
  intros Hnn. unfold pivots. rewrite make_len; cbn [bind].
  destruct (Nat.le_gt_cases (l + r) (length xs)) as [Hlr|Hlr].
  2:{ rewrite for_empty by (unfold len; lia). eexists; split; [reflexivity|]. split; [apply repeat_length|].
      intros i Hi. split; [|lia]. intros _. apply nth_repeat. }
  set (I := fun (i : nat) (pv : fl) => length pv = length xs /\
     forall k, (k < length xs)%nat ->
      ((k < l + r)%nat \/ (i <= k)%nat -> nth k pv fzero = fzero) /\
      ((l + r <= k < i)%nat ->
        (best (nth (k - r) xs fzero) (window xs k (S (l + r))) -> feqP (nth k pv fzero) (nth (k - r) xs fzero)) /\
        (~ best (nth (k - r) xs fzero) (window xs k (S (l + r))) -> nth k pv fzero = fzero))).
  rewrite <- Nat2Z.inj_add. unfold len.
  destruct (@for_inv_nat _ I (l + r) (length xs)
    (fun i pv => rolling <- slice xs (i - Z.of_nat r - Z.of_nat l) (i + 1);; t <- tInserts cmpF Leaf rolling;;
      m <- assertF (pick t);; c <- get xs (i - Z.of_nat r);; (if c ==~ m then set pv i m else Ok pv))
    (repeat fzero (length xs))) as (pv & E & HI).
  - exact Hlr.
  - split; [apply repeat_length|]. intros k Hk. split; [|lia]. intros _. apply nth_repeat.
  - intros i pv Hi (Hl & HI). unfold slice.
    destruct (Z.leb_spec 0 (Z.of_nat i - Z.of_nat r - Z.of_nat l)); [|lia].
    destruct (Z.leb_spec (Z.of_nat i - Z.of_nat r - Z.of_nat l) (Z.of_nat i + 1)); [|lia].
    destruct (Z.leb_spec (Z.of_nat i + 1) (len xs)); [|unfold len in *; lia]. cbn [andb bind].
    replace (Z.to_nat (Z.of_nat i - Z.of_nat r - Z.of_nat l)) with (S i - S (l + r))%nat by lia.
    replace (Z.to_nat (Z.of_nat i + 1)) with (S i) by lia.
    fold (window xs i (S (l + r))). set (w := window xs i (S (l + r))).
    assert (Hw : Forall nn w).
    { apply Forall_forall. intros y Hy. unfold no_nan in Hnn. rewrite Forall_forall in Hnn. apply Hnn.
      unfold w, window in Hy. apply skipn_In in Hy. now apply firstn_In in Hy. }
    destruct (@inss_spec w Leaf Logic.I Hw) as (t & Et & Ht & P). rewrite Et; cbn [bind].
    cbn [elems] in P. rewrite app_nil_r in P.
    assert (Hs : simeq (elems t) w).
    { apply simeq_of_perm; [exact Hw|]. rewrite P. symmetry. apply Permutation_rev. }
    destruct (@pick_best t w Ht Hs) as (m & Em & (x & Ix & Ex) & Hbm).
    { intros Z. apply (f_equal (@length F)) in Z. unfold w in Z. rewrite window_length in Z by lia. change (length (@nil F)) with 0%nat in Z. lia. }
    rewrite Em; cbn [assertF bind].
    replace (Z.of_nat i - Z.of_nat r) with (Z.of_nat (i - r)) by lia.
    rewrite (@get_nat _ xs _ fzero) by lia. cbn [bind]. set (c := nth (i - r) xs fzero).
    assert (Ic : In c w).
    { assert (Lw : length w = S (l + r)) by (unfold w; rewrite window_length by lia; lia).
      replace c with (nth l w fzero); [apply nth_In; lia|]. unfold w, c.
      rewrite window_nth by lia. f_equal. lia. }
    assert (Nc : nn c) by (rewrite Forall_forall in Hw; auto).
    destruct (feq_nn O _ _ Ex) as [Nm Nx].
    assert (Hiff : best c w <-> feqP c m).
    { split.
      - intros [_ Hc]. apply good_anti; auto. apply (@good_eq c x m); auto. now apply feq_sym.
      - intros Hcm. split.
        + exists c. split; [exact Ic|]. now apply (feq_refl O).
        + intros y Iy. apply (@good_eq_l m c y); auto; [rewrite Forall_forall in Hw; auto|now apply feq_sym]. }
    destruct (c ==~ m) eqn:Ecm.
    + rewrite set_ok by (unfold len; lia). eexists; split; [reflexivity|]. rewrite Nat2Z.id.
      split; [now rewrite upd_length|]. intros k Hk. split.
      * intros Hk'. rewrite nth_upd_ne by lia. apply (proj1 (HI k Hk)). lia.
      * intros Hk'. destruct (Nat.eq_dec k i) as [->|Hne].
        { rewrite nth_upd_eq by lia. split; [intros _; now apply feq_sym|].
          intros Hno. exfalso. apply Hno, Hiff. exact Ecm. }
        rewrite nth_upd_ne by lia. apply (proj2 (HI k Hk)). lia.
    + eexists; split; [reflexivity|]. split; [exact Hl|]. intros k Hk. split.
      * intros Hk'. apply (proj1 (HI k Hk)). lia.
      * intros Hk'. destruct (Nat.eq_dec k i) as [->|Hne].
        { split.
          - intros Hb. apply Hiff in Hb. unfold feqP in Hb. congruence.
          - intros _. apply (proj1 (HI i Hk)). lia. }
        apply (proj2 (HI k Hk)). lia.
  - destruct HI as (Hl & HI). exists pv. split; [exact E|]. split; [exact Hl|].
    intros i Hi. split; intros Hi'; [apply (proj1 (HI i Hi))|apply (proj2 (HI i Hi))]; lia.
Qed.
End Moving.

(** instances *)
Definition good_max (m y : F) := (y <=~ m) = true.
Definition good_min (m y : F) := (m <=~ y) = true.
Lemma good_max_eq m y z : nn m -> nn y -> nn z -> good_max m y -> feqP y z -> good_max m z.
Proof.
  unfold good_max; intros Hm Hy Hz H E. apply (fle_le O) in H; auto. apply (feq_le O) in E; auto.
  apply (fle_le O); auto. eapply (le_trans O) with (y := y); tauto.
Qed.
Lemma good_max_eq_l m m' y : nn m -> nn m' -> nn y -> good_max m y -> feqP m m' -> good_max m' y.
Proof.
  unfold good_max; intros Hm Hm' Hy H E. apply (fle_le O) in H; auto. apply (feq_le O) in E; auto.
  apply (fle_le O); auto. eapply (le_trans O) with (y := m); tauto.
Qed.
Lemma good_max_anti m y : nn m -> nn y -> good_max m y -> good_max y m -> feqP m y.
Proof. unfold good_max; intros Hm Hy H1 H2. apply (fle_le O) in H1, H2; auto. apply (feq_le O); tauto. Qed.
Lemma good_min_eq m y z : nn m -> nn y -> nn z -> good_min m y -> feqP y z -> good_min m z.
Proof.
  unfold good_min; intros Hm Hy Hz H E. apply (fle_le O) in H; auto. apply (feq_le O) in E; auto.
  apply (fle_le O); auto. eapply (le_trans O) with (y := y); tauto.
Qed.
Lemma good_min_eq_l m m' y : nn m -> nn m' -> nn y -> good_min m y -> feqP m m' -> good_min m' y.
Proof.
  unfold good_min; intros Hm Hm' Hy H E. apply (fle_le O) in H; auto. apply (feq_le O) in E; auto.
  apply (fle_le O); auto. eapply (le_trans O) with (y := m); tauto.
Qed.
Lemma good_min_anti m y : nn m -> nn y -> good_min m y -> good_min y m -> feqP m y.
Proof. unfold good_min; intros Hm Hy H1 H2. apply (fle_le O) in H1, H2; auto. apply (feq_le O); tauto. Qed.
Lemma tMax_good t : wfF t ->
  match tMax t with None => elems t = [] | Some m => In m (elems t) /\ forall y, In y (elems t) -> good_max m y end.
Proof.
  intros Ht. pose proof (@tMax_spec F nn flt (ol_asym O) (ol_ntrans O) t Ht) as H. destruct (tMax t); [|exact H].
  destruct H as [H1 H2]. split; [exact H1|]. intros y Hy. apply (fle_le O).
  - eapply wf_dom; [exact Ht|assumption].
  - eapply wf_dom; [exact Ht|assumption].
  - apply H2; exact Hy.
Qed.
Lemma tMin_good t : wfF t ->
  match tMin t with None => elems t = [] | Some m => In m (elems t) /\ forall y, In y (elems t) -> good_min m y end.
Proof.
  intros Ht. pose proof (@tMin_spec F nn flt (ol_asym O) (ol_ntrans O) t Ht) as H. destruct (tMin t); [|exact H].
  destruct H as [H1 H2]. split; [exact H1|]. intros y Hy. apply (fle_le O).
  - eapply wf_dom; [exact Ht|assumption].
  - eapply wf_dom; [exact Ht|assumption].
  - apply H2; exact Hy.
Qed.

Lemma Max_spec (p : nat) xs : (1 <= p)%nat -> no_nan xs ->
  exists r, Max (Z.of_nat p) xs = Ok r /\ length r = length xs /\
    forall i, (i < length xs)%nat -> max_of (nth i r fzero) (window xs i p).
Proof. apply (@moving_best (@tMax F) good_max good_max_eq tMax_good). Qed.
Lemma Min_spec (p : nat) xs : (1 <= p)%nat -> no_nan xs ->
  exists r, Min (Z.of_nat p) xs = Ok r /\ length r = length xs /\
    forall i, (i < length xs)%nat -> min_of (nth i r fzero) (window xs i p).
Proof. apply (@moving_best (@tMin F) good_min good_min_eq tMin_good). Qed.

Lemma PivotHigh_spec (l r : nat) xs : no_nan xs ->
  exists pv, PivotHigh xs (Z.of_nat l) (Z.of_nat r) = Ok pv /\ length pv = length xs /\
    forall i, (i < length xs)%nat ->
      ((i < l + r)%nat -> nth i pv fzero = fzero) /\
      ((l + r <= i)%nat ->
        (max_of (nth (i - r) xs fzero) (window xs i (S (l + r))) -> (nth i pv fzero ==~ nth (i - r) xs fzero) = true) /\
        (~ max_of (nth (i - r) xs fzero) (window xs i (S (l + r))) -> nth i pv fzero = fzero)).
Proof. apply (@pivots_spec (@tMax F) good_max good_max_eq good_max_eq_l good_max_anti tMax_good). Qed.
Lemma PivotLow_spec (l r : nat) xs : no_nan xs ->
  exists pv, PivotLow xs (Z.of_nat l) (Z.of_nat r) = Ok pv /\ length pv = length xs /\
    forall i, (i < length xs)%nat ->
      ((i < l + r)%nat -> nth i pv fzero = fzero) /\
      ((l + r <= i)%nat ->
        (min_of (nth (i - r) xs fzero) (window xs i (S (l + r))) -> (nth i pv fzero ==~ nth (i - r) xs fzero) = true) /\
        (~ min_of (nth (i - r) xs fzero) (window xs i (S (l + r))) -> nth i pv fzero = fzero)).
Proof. apply (@pivots_spec (@tMin F) good_min good_min_eq good_min_eq_l good_min_anti tMin_good). Qed.

(** ** Highest / Lowest *)
(** Folding the comparison over values scanned in any order. *)
Lemma fold_max (l : fl) : forall r0, nn r0 -> Forall nn l ->
  max_of (fold_left (fun r v => if r <~ v then v else r) l r0) (r0 :: l) /\
  nn (fold_left (fun r v => if r <~ v then v else r) l r0).
Proof.
  induction l as [|v l IH]; intros r0 H0 Hl; cbn [fold_left].
  - split; [|exact H0]. split.
    + exists r0; split; [now left|now apply (feq_refl O)].
    + intros x [<-|[]]. apply (fle_le O); auto. now apply (le_refl O).
  - inversion Hl as [|? ? Hv Hl']; subst.
    set (r1 := if r0 <~ v then v else r0).
    assert (H1 : nn r1) by (unfold r1; destruct (r0 <~ v); auto).
    destruct (IH r1 H1 Hl') as [[(x & Ix & Ex) Hb] Hn]. split; [|exact Hn].
    set (m := fold_left (fun r v => if r <~ v then v else r) l r1) in *. split.
    + exists x. split; [|exact Ex]. destruct Ix as [<-|Ix]; [|now right; right].
      unfold r1. destruct (r0 <~ v); [right; now left|now left].
    + assert (Hr1 : (r1 <=~ m) = true) by (apply Hb; now left). apply (fle_le O) in Hr1; auto.
      intros y [<-|[<-|Iy]].
      * apply (fle_le O); auto. eapply (le_trans O) with (y := r1); auto. unfold r1.
        destruct (r0 <~ v) eqn:E; [now apply (lt_le O)|now apply (le_refl O)].
      * apply (fle_le O); auto. eapply (le_trans O) with (y := r1); auto. unfold r1.
        destruct (r0 <~ v) eqn:E; [now apply (le_refl O)|exact E].
      * apply Hb. now right.
Qed.
Lemma fold_min (l : fl) : forall r0, nn r0 -> Forall nn l ->
  min_of (fold_left (fun r v => if v <~ r then v else r) l r0) (r0 :: l) /\
  nn (fold_left (fun r v => if v <~ r then v else r) l r0).
Proof.
  induction l as [|v l IH]; intros r0 H0 Hl; cbn [fold_left].
  - split; [|exact H0]. split.
    + exists r0; split; [now left|now apply (feq_refl O)].
    + intros x [<-|[]]. apply (fle_le O); auto. now apply (le_refl O).
  - inversion Hl as [|? ? Hv Hl']; subst.
    set (r1 := if v <~ r0 then v else r0).
    assert (H1 : nn r1) by (unfold r1; destruct (v <~ r0); auto).
    destruct (IH r1 H1 Hl') as [[(x & Ix & Ex) Hb] Hn]. split; [|exact Hn].
    set (m := fold_left (fun r v => if v <~ r then v else r) l r1) in *. split.
    + exists x. split; [|exact Ex]. destruct Ix as [<-|Ix]; [|now right; right].
      unfold r1. destruct (v <~ r0); [right; now left|now left].
    + assert (Hr1 : (m <=~ r1) = true) by (apply Hb; now left). apply (fle_le O) in Hr1; auto.
      intros y [<-|[<-|Iy]].
      * apply (fle_le O); auto. eapply (le_trans O) with (y := r1); auto. unfold r1.
        destruct (v <~ r0) eqn:E; [now apply (lt_le O)|now apply (le_refl O)].
      * apply (fle_le O); auto. eapply (le_trans O) with (y := r1); auto. unfold r1.
        destruct (v <~ r0) eqn:E; [now apply (le_refl O)|exact E].
      * apply Hb. now right.
Qed.

Lemma scan_back (g : F -> F -> F) (xs : fl) (k : nat) r0 : (k <= length xs)%nat ->
  for_ 0 (Z.of_nat k) (fun j r => v <- get xs (len xs - 1 - j) ;; Ok (g r v)) r0 =
  Ok (fold_left g (rev (skipn (length xs - k) xs)) r0).
Proof.
  intros Hk. change 0 with (Z.of_nat 0).
  rewrite (@for_nat _ (fun j => fold_left g (rev (skipn (length xs - j) xs)) r0) 0 k).
  - reflexivity.
  - lia.
  - rewrite Nat.sub_0_r, skipn_all. reflexivity.
  - intros i Hi. unfold len. replace (Z.of_nat (length xs) - 1 - Z.of_nat i) with (Z.of_nat (length xs - S i)) by lia.
    rewrite (@get_nat _ xs _ fzero) by lia. cbn [bind].
    rewrite (@skipn_S_nth _ xs (length xs - S i) fzero) by lia.
    replace (S (length xs - S i)) with (length xs - i)%nat by lia.
    cbn [rev]. rewrite fold_left_app. reflexivity.
Qed.

Lemma max_of_incl m (l l' : fl) : (forall x, In x l <-> In x l') -> max_of m l -> max_of m l'.
Proof.
  intros H [(x & Ix & Ex) Hb]. split; [exists x; split; [now apply H|exact Ex]|].
  intros y Hy. apply Hb. now apply H.
Qed.
Lemma min_of_incl m (l l' : fl) : (forall x, In x l <-> In x l') -> min_of m l -> min_of m l'.
Proof.
  intros H [(x & Ix & Ex) Hb]. split; [exists x; split; [now apply H|exact Ex]|].
  intros y Hy. apply Hb. now apply H.
Qed.

(** the last [max 1 (min n (len xs))] values *)

Lemma lastn_in xs n x : xs <> [] ->
  In x (nth (length xs - 1) xs fzero :: rev (skipn (length xs - Z.to_nat (Z.min n (len xs))) xs)) <-> In x (lastn xs n).
Proof.
  intros Hx. assert (Hl : (0 < length xs)%nat) by (destruct xs; [congruence|cbn; lia]).
  unfold lastn, len. destruct (Z.le_gt_cases n 0) as [Hn|Hn].
  - replace (Z.to_nat (Z.min n (Z.of_nat (length xs)))) with 0%nat by lia.
    replace (Z.to_nat (Z.max 1 n)) with 1%nat by lia. rewrite Nat.sub_0_r, skipn_all.
    rewrite (@skipn_S_nth _ xs (length xs - 1) fzero) by lia.
    replace (S (length xs - 1)) with (length xs) by lia. rewrite skipn_all. reflexivity.
  - replace (length xs - Z.to_nat (Z.max 1 n))%nat with (length xs - Z.to_nat (Z.min n (Z.of_nat (length xs))))%nat by lia.
    set (k := Z.to_nat (Z.min n (Z.of_nat (length xs)))).
    cbn [In]. rewrite <- in_rev. split; [intros [<-|H]|]; auto.
    replace (nth (length xs - 1) xs fzero) with (nth (k - 1) (skipn (length xs - k) xs) fzero).
    + apply nth_In. rewrite skipn_length. lia.
    + rewrite nth_skipn. f_equal. lia.
Qed.

Lemma Highest_spec xs n : xs <> [] -> no_nan xs ->
  exists m, Highest xs n = Ok m /\ max_of m (lastn xs n).
Proof.
  intros Hx Hnn. assert (Hl : (0 < length xs)%nat) by (destruct xs; [congruence|cbn; lia]).
  unfold Highest.
  assert (Eg : get xs (len xs - 1) = Ok (nth (length xs - 1) xs fzero)).
  { replace (len xs - 1) with (Z.of_nat (length xs - 1)) by (unfold len; lia). apply get_nat. lia. }
  rewrite Eg. cbn [bind].
  assert (Ek : for_ 0 (Z.min n (len xs)) (fun k result => v <- get xs (len xs - 1 - k) ;; Ok (if result <~ v then v else result)) (nth (length xs - 1) xs fzero)
    = Ok (fold_left (fun r v => if r <~ v then v else r) (rev (skipn (length xs - Z.to_nat (Z.min n (len xs))) xs)) (nth (length xs - 1) xs fzero))).
  { destruct (Z.le_gt_cases n 0).
    - rewrite for_empty by lia. replace (Z.to_nat (Z.min n (len xs))) with 0%nat by (unfold len; lia).
      rewrite Nat.sub_0_r, skipn_all. reflexivity.
    - rewrite <- (scan_back (fun r v => if r <~ v then v else r)) by (unfold len; lia). rewrite Z2Nat.id by (unfold len; lia). reflexivity. }
  rewrite Ek. eexists; split; [reflexivity|].
  eapply max_of_incl; [intros x; apply (@lastn_in xs n x Hx)|].
  unfold no_nan in Hnn. rewrite Forall_forall in Hnn. apply fold_max.
  - apply Hnn, nth_In. lia.
  - apply Forall_forall. intros y Hy. apply in_rev in Hy. apply skipn_In in Hy. now apply Hnn.
Qed.
Lemma Lowest_spec xs n : xs <> [] -> no_nan xs ->
  exists m, Lowest xs n = Ok m /\ min_of m (lastn xs n).
Proof.
  intros Hx Hnn. assert (Hl : (0 < length xs)%nat) by (destruct xs; [congruence|cbn; lia]).
  unfold Lowest.
  assert (Eg : get xs (len xs - 1) = Ok (nth (length xs - 1) xs fzero)).
  { replace (len xs - 1) with (Z.of_nat (length xs - 1)) by (unfold len; lia). apply get_nat. lia. }
  rewrite Eg. cbn [bind].
  assert (Ek : for_ 0 (Z.min n (len xs)) (fun k result => v <- get xs (len xs - 1 - k) ;; Ok (if v <~ result then v else result)) (nth (length xs - 1) xs fzero)
    = Ok (fold_left (fun r v => if v <~ r then v else r) (rev (skipn (length xs - Z.to_nat (Z.min n (len xs))) xs)) (nth (length xs - 1) xs fzero))).
  { destruct (Z.le_gt_cases n 0).
    - rewrite for_empty by lia. replace (Z.to_nat (Z.min n (len xs))) with 0%nat by (unfold len; lia).
      rewrite Nat.sub_0_r, skipn_all. reflexivity.
    - rewrite <- (scan_back (fun r v => if v <~ r then v else r)) by (unfold len; lia). rewrite Z2Nat.id by (unfold len; lia). reflexivity. }
  rewrite Ek. eexists; split; [reflexivity|].
  eapply min_of_incl; [intros x; apply (@lastn_in xs n x Hx)|].
  unfold no_nan in Hnn. rewrite Forall_forall in Hnn. apply fold_min.
  - apply Hnn, nth_In. lia.
  - apply Forall_forall. intros y Hy. apply in_rev in Hy. apply skipn_In in Hy. now apply Hnn.
Qed.
Lemma Highest_empty n : Highest (@nil F) n = Panic.
Proof. reflexivity. Qed.
Lemma Lowest_empty n : Lowest (@nil F) n = Panic.
Proof. reflexivity. Qed.
End Ord.
