(** * KlineConvert: ConvertToNewInterval. *)
From Coq Require Import String Lia.
From Verif Require Import Base Num Order Klines SpecTa SpecKlines KlineFloat TaTools TaOrd KlineProofs2.
Set Implicit Arguments.

(** ** Loops over a list that ignore the index *)
Fixpoint foldM {A S} (g : A -> S -> res S) (l : list A) (s : S) : res S :=
  match l with [] => Ok s | x :: l' => s <- g x s ;; foldM g l' s end.
Lemma foldM_app A S (g : A -> S -> res S) l1 l2 s : foldM g (l1 ++ l2) s = (s <- foldM g l1 s ;; foldM g l2 s).
Proof. revert s. induction l1 as [|x l1 IH]; intros s; [reflexivity|]. cbn. destruct (g x s); [apply IH|reflexivity]. Qed.
Lemma range_foldM A S (g : A -> S -> res S) l s : range_ l (fun _ x s => g x s) s = foldM g l s.
Proof.
  unfold range_, len.
  assert (H : forall m s, (m <= length l)%nat ->
     for_ 0 (Z.of_nat m) (fun i st => v <- get l i ;; g v st) s = foldM g (firstn m l) s).
  { intros m. induction m as [|m IH]; intros s0 Hm; [reflexivity|].
    rewrite (@for_split _ 0 (Z.of_nat m)) by lia. rewrite IH by lia.
    destruct l as [|a0 l0] eqn:El; [cbn in Hm; lia|]. rewrite <- El in *.
    rewrite (firstn_S_nth l a0) by lia. rewrite foldM_app. destruct (foldM g (firstn m l) s0) as [s1|]; [|reflexivity].
    cbn [bind]. rewrite for_step by lia. rewrite get_nat with (d := a0) by lia. cbn [bind foldM].
    destruct (g (nth m l a0) s1); [|reflexivity]. cbn [bind]. apply for_empty. lia. }
  rewrite H by lia. now rewrite firstn_all.
Qed.
Lemma foldM_flat A B S (f : A -> list B) (g : B -> S -> res S) l s :
  foldM (fun x s => foldM g (f x) s) l s = foldM g (flat_map f l) s.
Proof.
  revert s. induction l as [|x l IH]; intros s; [reflexivity|]. cbn [foldM flat_map]. rewrite foldM_app.
  destruct (foldM g (f x) s); [apply IH|reflexivity].
Qed.

Lemma set_tab A n (f f' : nat -> A) T v : (T < n)%nat -> f' T = v -> (forall j, (j < n)%nat -> j <> T -> f' j = f j) ->
  set (tab n f) (Z.of_nat T) v = Ok (tab n f').
Proof.
  intros HT HvT Hf. rewrite set_ok by (unfold len; rewrite tab_length; lia). rewrite Nat2Z.id. f_equal.
  apply (@list_eq_nth _ _ _ v); [now rewrite upd_length, !tab_length|].
  intros k Hk. rewrite upd_length, tab_length in Hk. rewrite (tab_nth f') by lia.
  destruct (Nat.eq_dec k T) as [->|Hne].
  - rewrite nth_upd_eq; [congruence|rewrite tab_length; lia].
  - rewrite nth_upd_ne by congruence. rewrite tab_nth by lia. now rewrite Hf.
Qed.

Lemma last_nth A (l : list A) d : last l d = nth (length l - 1) l d.
Proof.
  destruct l as [|x l] using rev_ind; [reflexivity|]. rewrite last_last, app_length, app_nth2 by (cbn; lia).
  cbn [length]. replace (length l + 1 - 1 - length l)%nat with 0%nat by lia. reflexivity.
Qed.

Section Any.
Context {N : Num}.

(** ** The new candles' times *)
Definition stamp (d : IntervalData) : option Candle := Some (blank (toUnix (itTime (idStart d)))).
Definition astep (d : IntervalData) : Z * list (option Candle) -> res (Z * list (option Candle)) :=
  fun '(target, candles) =>
      if target >=? len candles then Ok (target, candles) else
      candles <- set candles target (Some (blank (toUnix (itTime (idStart d))))) ;;
      Ok (target + 1, candles).
Lemma assign_fold h candles :
  assign_times h candles = ('(_, candles) <- foldM astep (intervals h) (0, candles) ;; Ok candles).
Proof.
  unfold assign_times, intervals. rewrite <- foldM_flat. rewrite <- range_foldM.
  unfold range_ at 1 3.
  assert (E : for_ 0 (len (hRanges h)) (fun i st => v <- get (hRanges h) i ;;
       (let '(target, candles0) := st in range_ (irIntervals v) (fun _ d '(target, candles) =>
          if target >=? len candles then Ok (target, candles) else
          candles <- set candles target (Some (blank (toUnix (itTime (idStart d))))) ;;
          Ok (target + 1, candles)) (target, candles0))) (0, candles)
     = for_ 0 (len (hRanges h)) (fun i st => v <- get (hRanges h) i ;; foldM astep (irIntervals v) st) (0, candles)).
  { apply for_ext. intros i [t c] Hi. destruct (get (hRanges h) i); [|reflexivity]. cbn [bind].
    rewrite <- range_foldM. reflexivity. }
  now rewrite E.
Qed.
Lemma astep_all ivs q : let m := Nat.min (length ivs) q in
  foldM astep ivs (0, repeat None q)
  = Ok (Z.of_nat m, partial None (fun j => stamp (nth j ivs zeroID)) q m).
Proof.
  cbv zeta. induction ivs as [|d ivs IH] using rev_ind.
  - rewrite Nat.min_0_l, partial_0. reflexivity.
  - rewrite foldM_app, IH. cbn [bind foldM astep]. rewrite app_length. cbn [length].
    assert (E : forall m, (m <= length ivs)%nat -> partial None (fun j => stamp (nth j (ivs ++ [d]) zeroID)) q m =
        partial None (fun j => stamp (nth j ivs zeroID)) q m).
    { intros m Hm. unfold partial. f_equal. apply tab_ext. intros j Hj. now rewrite app_nth1 by lia. }
    rewrite partial_len by lia.
    destruct (Z.geb_spec (Z.of_nat (Nat.min (length ivs) q)) (Z.of_nat q)) as [H|H].
    + cbn [bind]. replace (Nat.min (length ivs + 1) q) with (Nat.min (length ivs) q) by lia.
      rewrite E by lia. reflexivity.
    + rewrite <- E by lia.
      rewrite partial_set with (f := fun j => stamp (nth j (ivs ++ [d]) zeroID)).
      * cbn [bind]. repeat f_equal; lia.
      * lia.
      * replace (Nat.min (length ivs) q) with (length ivs) by lia. rewrite app_nth2, Nat.sub_diag by lia. reflexivity.
Qed.
Lemma assign_spec h q : (q <= length (intervals h))%nat ->
  assign_times h (repeat None q) = Ok (tab q (fun j => stamp (nth j (intervals h) zeroID))).
Proof.
  intros Hq. rewrite assign_fold, astep_all. cbn [bind]. rewrite Nat.min_r by lia. now rewrite partial_full.
Qed.

(** ** The merge loop *)
Section Merge.
Variables (cs : list Candle) (t0 s : Z) (k q : nat).
Let n := length cs.
Hypothesis Hs : 0 < s.
Hypothesis Hk : (2 <= k)%nat.
Hypothesis Hq : q = (n / k)%nat.
Hypothesis Hq1 : (1 <= q)%nat.
Hypothesis Hev : evenly cs t0 s.

Definition hl_group (j : nat) : list Candle := if (S j =? q)%nat then skipn (j * k) cs else group cs k j.
Definition ab := absorb s (Z.of_nat k * s).
Definition nstart (j : nat) : Z := t0 + Z.of_nat j * (Z.of_nat k * s).
Definition acc (j m : nat) : Candle := fold_left (fun cur old => ab old cur) (firstn m (hl_group j)) (blank (nstart j)).
Definition tgt (x : nat) : nat := Nat.min (x / k) (q - 1).

Lemma ab_time old cur : cTime (ab old cur) = cTime cur.
Proof.
  unfold ab, absorb. cbv zeta.
  repeat match goal with |- context[if ?b then _ else _] => destruct b end; reflexivity.
Qed.
Lemma acc_time j m : cTime (acc j m) = nstart j.
Proof.
  unfold acc. generalize (firstn m (hl_group j)) as l. intros l.
  assert (H : forall c, cTime (fold_left (fun cur old => ab old cur) l c) = cTime c).
  { induction l as [|x l IH]; intros c; [reflexivity|]. cbn. now rewrite IH, ab_time. }
  now rewrite H.
Qed.
Lemma qk : (q * k <= n < (q + 1) * k)%nat.
Proof.
  rewrite Hq. pose proof (Nat.div_mod n k ltac:(lia)). pose proof (Nat.mod_upper_bound n k ltac:(lia)). nia.
Qed.
Lemma tgt_bounds x : (x < n)%nat -> (tgt x < q /\ tgt x * k <= x /\ (tgt x < q - 1 -> x < (tgt x + 1) * k))%nat.
Proof.
  intros Hx. unfold tgt. pose proof (Nat.div_mod x k ltac:(lia)). pose proof (Nat.mod_upper_bound x k ltac:(lia)).
  set (d := (x / k)%nat) in *. destruct (Nat.min_spec d (q - 1)) as [[? ->]|[? ->]]; repeat split; try lia; nia.
Qed.
Lemma hl_nth j i : (j < q)%nat -> (i < length (hl_group j))%nat -> nth i (hl_group j) (blank 0) = nth (j * k + i) cs (blank 0).
Proof.
  intros Hj Hi. unfold hl_group in *. destruct (Nat.eqb_spec (S j) q).
  - now rewrite nth_skipn.
  - unfold group in *. rewrite firstn_length in Hi. rewrite nth_firstn_lt by lia. now rewrite nth_skipn.
Qed.
Lemma hl_length j : (j < q)%nat -> length (hl_group j) = if (S j =? q)%nat then (n - j * k)%nat else k.
Proof.
  intros Hj. pose proof qk. unfold hl_group. destruct (Nat.eqb_spec (S j) q).
  - apply skipn_length.
  - unfold group. rewrite firstn_length, skipn_length. fold n. nia.
Qed.

Lemma acc_S j m : (j < q)%nat -> (m < length (hl_group j))%nat -> acc j (S m) = ab (nth (j * k + m) cs (blank 0)) (acc j m).
Proof.
  intros Hj Hm. unfold acc. rewrite (firstn_S_nth _ (blank 0)) by lia. rewrite fold_left_app. cbn [fold_left].
  now rewrite hl_nth.
Qed.
Lemma acc_stable j m m' : (length (hl_group j) <= m)%nat -> (length (hl_group j) <= m')%nat -> acc j m = acc j m'.
Proof. intros H1 H2. unfold acc. now rewrite !firstn_all2 by lia. Qed.

Lemma step_acc x : (x < n)%nat -> forall j, (j < q)%nat -> j <> tgt x -> acc j (S x - j * k) = acc j (x - j * k).
Proof.
  intros Hx j Hj Hne. pose proof (tgt_bounds Hx) as (B1 & B2 & B3).
  destruct (Nat.lt_ge_cases j (tgt x)) as [Hlt|Hge].
  - apply acc_stable; rewrite hl_length by lia; destruct (Nat.eqb_spec (S j) q); nia.
  - assert ((tgt x + 1) * k <= j * k)%nat by nia. assert (x < (tgt x + 1) * k)%nat by lia.
    replace (S x - j * k)%nat with 0%nat by lia. replace (x - j * k)%nat with 0%nat by lia. reflexivity.
Qed.

Lemma tgt_S x : (S x < n)%nat -> tgt (S x) =
  if (tgt x <? q - 1)%nat && (S x =? (tgt x + 1) * k)%nat then S (tgt x) else tgt x.
Proof.
  intros Hx. pose proof qk as Q. unfold tgt.
  pose proof (Nat.div_mod x k ltac:(lia)). pose proof (Nat.mod_upper_bound x k ltac:(lia)).
  pose proof (Nat.div_mod (S x) k ltac:(lia)). pose proof (Nat.mod_upper_bound (S x) k ltac:(lia)).
  set (d := (x / k)%nat) in *. set (d' := (S x / k)%nat) in *.
  assert (d' = d \/ d' = S d) as [E|E] by nia.
  - rewrite E in *. destruct (Nat.ltb_spec (Nat.min d (q - 1)) (q - 1)); cbn [andb]; [|reflexivity].
    destruct (Nat.eqb_spec (S x) ((Nat.min d (q - 1) + 1) * k)); [|reflexivity].
    exfalso. replace (Nat.min d (q - 1)) with d in * by lia. nia.
  - rewrite E in *. destruct (Nat.ltb_spec (Nat.min d (q - 1)) (q - 1)); cbn [andb]; [|lia].
    destruct (Nat.eqb_spec (S x) ((Nat.min d (q - 1) + 1) * k)); [lia|].
    exfalso. replace (Nat.min d (q - 1)) with d in * by lia. nia.
Qed.

Lemma merge_spec cands : cands = tab q (fun j => Some (blank (nstart j))) ->
  merge_loop cs cands (Z.of_nat k) s (Z.of_nat k * s) = Ok (tab q (fun j => Some (acc j (length (hl_group j))))).
Proof.
  intros ->. unfold merge_loop. pose proof qk as Q.
  rewrite for_nat0 with (st := fun x => (Some (Z.of_nat (if (x <? n)%nat then tgt x else q - 1)), tab q (fun j => Some (acc j (x - j * k))))).
  - cbn [bind]. f_equal. apply tab_ext. intros j Hj. f_equal. fold n.
    rewrite hl_length by lia. destruct (Nat.eqb_spec (S j) q); [reflexivity|].
    apply acc_stable; rewrite hl_length by lia; destruct (Nat.eqb_spec (S j) q); try lia; nia.
  - replace (0 <? n)%nat with true by (symmetry; apply Nat.ltb_lt; nia).
    unfold tgt. rewrite Nat.div_0_l by lia. reflexivity.
  - fold n. intros x Hx. pose proof (tgt_bounds Hx) as (B1 & B2 & B3).
    replace (x <? n)%nat with true by (symmetry; apply Nat.ltb_lt; lia).
    rewrite get_nat with (d := blank 0) by lia. cbn [bind].
    rewrite get_nat with (d := None) by (rewrite tab_length; lia). rewrite tab_nth by lia. cbn [bind deref].
    rewrite set_tab with (f' := fun j => Some (acc j (S x - j * k))); [|lia| |].
    2:{ f_equal. replace (S x - tgt x * k)%nat with (S (x - tgt x * k)) by lia. rewrite acc_S; [|lia|].
        - unfold ab. do 2 f_equal. lia.
        - rewrite hl_length by lia. destruct (Nat.eqb_spec (S (tgt x)) q); [lia|]. specialize (B3 ltac:(lia)). nia. }
    2:{ intros j Hj Hne. f_equal. now apply step_acc. }
    cbn [bind]. unfold advance, len. rewrite tab_length. fold n.
    destruct (Nat.ltb_spec (S x) n) as [Hl|Hl].
    + rewrite tgt_S by lia.
      replace (Z.of_nat x <? Z.of_nat n - 1) with true by (symmetry; apply Z.ltb_lt; lia). cbn [andb].
      destruct (Nat.ltb_spec (tgt x) (q - 1)) as [Ht|Ht]; cbn [andb].
      * replace (Z.of_nat (tgt x) <? Z.of_nat q - 1) with true by (symmetry; apply Z.ltb_lt; lia).
        replace (Z.of_nat x + 1) with (Z.of_nat (S x)) by lia.
        replace (Z.of_nat (tgt x) + 1) with (Z.of_nat (S (tgt x))) by lia.
        rewrite get_nat with (d := blank 0) by lia. cbn [bind].
        rewrite get_nat with (d := None) by (rewrite tab_length; lia). rewrite tab_nth by lia. cbn [bind deref].
        rewrite acc_time. unfold nstart.
        rewrite (Hev (S x) (nth_error_nth' cs (blank 0) (Hl : (S x < length cs)%nat))).
        destruct (Nat.eqb_spec (S x) ((tgt x + 1) * k)) as [He|He].
        -- replace (t0 + Z.of_nat (S x) * s =? _) with true by (symmetry; apply Z.eqb_eq; rewrite He; nia).
           replace (Z.of_nat n - Z.of_nat x - 1 <? Z.of_nat k) with false by (symmetry; apply Z.ltb_ge; nia).
           reflexivity.
        -- replace (t0 + Z.of_nat (S x) * s =? _) with false by (symmetry; apply Z.eqb_neq; nia). reflexivity.
      * replace (Z.of_nat (tgt x) <? Z.of_nat q - 1) with false by (symmetry; apply Z.ltb_ge; lia). reflexivity.
    + replace (Z.of_nat x <? Z.of_nat n - 1) with false by (symmetry; apply Z.ltb_ge; lia). cbn [andb].
      assert (x = n - 1)%nat by lia. subst x.
      assert (Et : tgt (n - 1) = (q - 1)%nat); [|cbn [bind]; rewrite Et; reflexivity].
      destruct (Nat.eq_dec (tgt (n-1)) (q - 1)) as [|Hne]; [auto|]. specialize (B3 ltac:(lia)). nia.
Qed.

(** ** What absorbing a group yields *)
Hypothesis OL : OrdLaws N.
Lemma flt_irr (x : F) : nn x -> flt x x = false.
Proof. intros Hx. destruct (flt x x) eqn:E; [|reflexivity]. now rewrite (ol_asym OL Hx Hx E) in E. Qed.
Lemma zero_eq0 : (fzero ==~ ofZ 0) = true.
Proof. change (ofZ 0) with fzero. rewrite (ol_eq OL) by apply (ol_zero OL). now rewrite flt_irr by apply (ol_zero OL). Qed.

Definition top (h : F) (l : list F) : Prop := In h l /\ forall x, In x l -> flt h x = false.
Definition bot (h : F) (l : list F) : Prop := In h l /\ forall x, In x l -> flt x h = false.
Lemma top_max h l : Forall nn l -> top h l -> max_of h l.
Proof.
  intros Hl [Hin Hle]. rewrite Forall_forall in Hl. split.
  - exists h. split; [exact Hin|]. rewrite (ol_eq OL) by auto. now rewrite flt_irr by auto.
  - intros x Hx. rewrite (ol_le OL) by auto. now rewrite Hle.
Qed.
Lemma bot_min h l : Forall nn l -> bot h l -> min_of h l.
Proof.
  intros Hl [Hin Hle]. rewrite Forall_forall in Hl. split.
  - exists h. split; [exact Hin|]. rewrite (ol_eq OL) by auto. now rewrite flt_irr by auto.
  - intros x Hx. rewrite (ol_le OL) by auto. now rewrite Hle.
Qed.
Lemma top_snoc h l x : Forall nn (l ++ [x]) -> top h l -> top (if x >~ h then x else h) (l ++ [x]).
Proof.
  intros Hl [Hin Hle]. rewrite Forall_forall in Hl.
  assert (Hh : nn h) by (apply Hl, in_app_iff; auto). assert (Hx : nn x) by (apply Hl, in_app_iff; cbn; auto).
  destruct (flt h x) eqn:E; (split; [apply in_app_iff; cbn; auto|]); intros y Hy; assert (Hy' := Hl y Hy);
    apply in_app_iff in Hy as [Hy|[<-|[]]].
  - apply (@ol_ntrans _ OL x h y); auto. now apply (ol_asym OL).
  - now apply flt_irr.
  - auto.
  - exact E.
Qed.
Lemma bot_snoc h l x : Forall nn (l ++ [x]) -> bot h l -> bot (if x <~ h then x else h) (l ++ [x]).
Proof.
  intros Hl [Hin Hle]. rewrite Forall_forall in Hl.
  assert (Hh : nn h) by (apply Hl, in_app_iff; auto). assert (Hx : nn x) by (apply Hl, in_app_iff; cbn; auto).
  destruct (flt x h) eqn:E; (split; [apply in_app_iff; cbn; auto|]); intros y Hy; assert (Hy' := Hl y Hy);
    apply in_app_iff in Hy as [Hy|[<-|[]]].
  - apply (@ol_ntrans _ OL y h x); auto. now apply (ol_asym OL).
  - now apply flt_irr.
  - auto.
  - exact E.
Qed.

Hypothesis Hpr : priced cs.
Lemma priced_in c : In c cs -> nn (cHigh c) /\ nn (cLow c) /\ (cLow c ==~ ofZ 0) = false.
Proof. unfold priced in Hpr. rewrite Forall_forall in Hpr. apply Hpr. Qed.

Definition cj (j i : nat) : Candle := nth (j * k + i) cs (blank 0).
Lemma cj_in j i : (j < q)%nat -> (i < length (hl_group j))%nat -> In (cj j i) cs.
Proof.
  intros Hj Hi. apply nth_In. rewrite hl_length in Hi by lia. pose proof qk. fold n.
  destruct (Nat.eqb_spec (S j) q); [lia|nia].
Qed.
Lemma cj_time j i : (j < q)%nat -> (i < length (hl_group j))%nat -> cTime (cj j i) = nstart j + Z.of_nat i * s.
Proof.
  intros Hj Hi. unfold cj. rewrite hl_length in Hi by lia. pose proof qk.
  assert (Hlt : (j * k + i < length cs)%nat) by (fold n; destruct (Nat.eqb_spec (S j) q); [lia|nia]).
  rewrite (Hev _ (nth_error_nth' cs (blank 0) Hlt)). unfold nstart. lia.
Qed.

Lemma acc_fields j m : (j < q)%nat -> (m < length (hl_group j))%nat ->
  let c := acc j (S m) in
  cOpen c = cOpen (cj j 0) /\
  top (cHigh c) (map cHigh (firstn (S m) (hl_group j))) /\
  bot (cLow c) (map cLow (firstn (S m) (hl_group j))) /\
  cVolume c = fold_left fadd (map cVolume (firstn (Nat.min k (S m)) (hl_group j))) fzero /\
  ((k <= S m)%nat -> cClose c = cClose (cj j (k - 1)) /\ cChange c = (cClose c -~ cOpen c) /~ cOpen c /\
                     cBull c = (cClose c >~ cOpen c)) /\
  ((S m < k)%nat -> cBull c = false).
Proof.
  intros Hj. induction m as [|m IH]; intros Hm; cbv zeta.
  - rewrite acc_S by lia. fold (cj j 0).
    change (acc j 0) with (blank (nstart j)). unfold ab, absorb. cbv zeta.
    rewrite (cj_time (i := 0)) by lia. cbn [blank cTime]. rewrite Z.add_0_r, Z.eqb_refl.
    change (cOpen (blank (nstart j))) with (fzero : F). rewrite zero_eq0.
    cbn [andb orb blank setOpen setHigh setLow setVolume cTime].
    replace (nstart j + s =? nstart j + Z.of_nat k * s) with false by (symmetry; apply Z.eqb_neq; nia).
    cbn [cOpen cHigh cLow cVolume cClose cBull].
    destruct (hl_group j) as [|c0 l0] eqn:El; [cbn in Hm; lia|].
    assert (E0 : cj j 0 = c0).
    { unfold cj. rewrite <- hl_nth by (rewrite ?El; cbn; lia). now rewrite El. }
    rewrite Nat.min_r by lia. cbn [firstn map fold_left]. rewrite E0. destruct (@priced_in c0) as (P1 & P2 & P3).
    { rewrite <- E0. apply cj_in; [lia|]. rewrite El. cbn. lia. }
    split; [reflexivity|]. split; [split; [cbn; auto|intros x [<-|[]]; now apply flt_irr]|].
    split; [split; [cbn; auto|intros x [<-|[]]; now apply flt_irr]|]. split; [reflexivity|]. split; [lia|reflexivity].
  - destruct IH as (IO & IH1 & IL & IV & IC & IB); [lia|]. rewrite acc_S by lia. fold (cj j (S m)).
    set (c := acc j (S m)) in *. set (old := cj j (S m)).
    assert (Et : cTime c = nstart j) by apply acc_time.
    assert (Eo : cTime old = nstart j + Z.of_nat (S m) * s) by (apply cj_time; lia).
    assert (Hino : In old cs) by (apply cj_in; lia).
    assert (Hall : forall f, Forall nn (map f cs) -> Forall nn (map f (firstn (S m) (hl_group j)) ++ [f old])).
    { intros f Hf. rewrite Forall_forall in Hf |- *. intros x Hx. apply Hf. apply in_app_iff in Hx as [Hx|[<-|[]]].
      - apply in_map_iff in Hx as (y & <- & Hy). apply in_map.
        apply firstn_In in Hy. unfold hl_group in Hy. destruct (S j =? q)%nat; [now apply skipn_In in Hy|].
        apply firstn_In, skipn_In in Hy. exact Hy.
      - now apply in_map. }
    assert (Hsn : forall f : Candle -> F, map f (firstn (S (S m)) (hl_group j)) = map f (firstn (S m) (hl_group j)) ++ [f old]).
    { intros f. rewrite (firstn_S_nth (hl_group j) (blank 0)) by lia. rewrite map_app. cbn [map].
      rewrite hl_nth by lia. reflexivity. }
    assert (Hnh : Forall nn (map cHigh cs)).
    { apply Forall_forall. intros x Hx. apply in_map_iff in Hx as (y & <- & Hy). now apply priced_in. }
    assert (Hnl : Forall nn (map cLow cs)).
    { apply Forall_forall. intros x Hx. apply in_map_iff in Hx as (y & <- & Hy). now apply priced_in. }
    assert (HT := @top_snoc _ _ _ (Hall _ Hnh) IH1). assert (HB := @bot_snoc _ _ _ (Hall _ Hnl) IL).
    rewrite <- Hsn in HT, HB.
    assert (Hz : (cLow c ==~ ofZ 0) = false).
    { destruct IL as [Hin _]. apply in_map_iff in Hin as (y & Ey & Hy). rewrite <- Ey.
      apply firstn_In in Hy. unfold hl_group in Hy. apply priced_in.
      destruct (S j =? q)%nat; [now apply skipn_In in Hy|]. apply firstn_In, skipn_In in Hy. exact Hy. }
    unfold ab, absorb. cbv zeta. rewrite Et, Eo.
    replace (nstart j + Z.of_nat (S m) * s =? nstart j) with false by (symmetry; apply Z.eqb_neq; nia).
    replace (nstart j + Z.of_nat (S m) * s >? nstart j) with true by (symmetry; rewrite Z.gtb_ltb; apply Z.ltb_lt; nia).
    cbn [andb orb].
    set (c1 := if cHigh c <~ cHigh old then setHigh (cHigh old) c else c).
    assert (E1 : cOpen c1 = cOpen c /\ cHigh c1 = (if cHigh c <~ cHigh old then cHigh old else cHigh c) /\ cLow c1 = cLow c /\
                 cVolume c1 = cVolume c /\ cTime c1 = cTime c /\ cClose c1 = cClose c /\ cChange c1 = cChange c /\ cBull c1 = cBull c).
    { unfold c1. destruct (cHigh c <~ cHigh old); repeat split. }
    destruct E1 as (F1 & F2 & F3 & F4 & F5 & F6 & F7 & F8). rewrite F3, Hz. cbn [orb].
    set (c2 := if cLow old <~ cLow c then setLow (cLow old) c1 else c1).
    assert (E2 : cOpen c2 = cOpen c /\ cHigh c2 = cHigh c1 /\ cLow c2 = (if cLow old <~ cLow c then cLow old else cLow c) /\
                 cVolume c2 = cVolume c /\ cTime c2 = nstart j /\ cClose c2 = cClose c /\ cChange c2 = cChange c /\ cBull c2 = cBull c).
    { unfold c2. destruct (cLow old <~ cLow c); repeat split; cbn [setLow cOpen cHigh cLow cVolume cTime cClose cChange cBull]; congruence. }
    destruct E2 as (G1 & G2 & G3 & G4 & G5 & G6 & G7 & G8).
    clearbody c2. rewrite ?F5, ?Et, ?G5.
    set (c3 := if nstart j + Z.of_nat (S m) * s <? nstart j + Z.of_nat k * s then setVolume (cVolume c2 +~ cVolume old) c2 else c2).
    assert (E3 : cOpen c3 = cOpen c /\ cHigh c3 = cHigh c1 /\ cLow c3 = (if cLow old <~ cLow c then cLow old else cLow c) /\
                 cVolume c3 = fold_left fadd (map cVolume (firstn (Nat.min k (S (S m))) (hl_group j))) fzero /\
                 cTime c3 = nstart j /\ cClose c3 = cClose c /\ cChange c3 = cChange c /\ cBull c3 = cBull c).
    { unfold c3. destruct (Z.ltb_spec (nstart j + Z.of_nat (S m) * s) (nstart j + Z.of_nat k * s)) as [Hl|Hl].
      - assert (Hmk : (S m < k)%nat) by nia.
        repeat split; cbn [setVolume cOpen cHigh cLow cVolume cTime cClose cChange cBull]; auto.
        rewrite Nat.min_r in IV |- * by lia. rewrite Hsn, fold_left_app, <- IV, G4. reflexivity.
      - assert (Hmk : (k <= S m)%nat) by nia. repeat split; auto.
        rewrite Nat.min_l in IV |- * by lia. now rewrite G4. }
    destruct E3 as (H1 & H2 & H3 & H4 & H5 & H6 & H7 & H8). clearbody c3. rewrite H5.
    replace (nstart j + Z.of_nat (S m) * s + s) with (nstart j + Z.of_nat (S (S m)) * s) by lia.
    destruct (Z.eqb_spec (nstart j + Z.of_nat (S (S m)) * s) (nstart j + Z.of_nat k * s)) as [He|He].
    + assert (Hmk : S (S m) = k) by nia. cbv zeta. cbn [setChange setClose cClose cOpen].
      assert (HB' : cBull c = false) by (apply IB; lia).
      destruct (cOpen c3 <~ cClose old) eqn:Eb;
        cbn [setBull setChange setClose cOpen cHigh cLow cVolume cTime cClose cChange cBull];
        (split; [congruence|]); (split; [now rewrite H2, F2|]); (split; [now rewrite H3|]); (split; [exact H4|]);
        (split; [|lia]); intros _; replace (k - 1)%nat with (S m) by lia; fold old; repeat split; auto; congruence.
    + assert (Hmk : S (S m) <> k) by (intros Hx; apply He; rewrite Hx; reflexivity).
      split; [congruence|]. split; [now rewrite H2, F2|]. split; [now rewrite H3|]. split; [exact H4|]. split.
      * intros Hkm. destruct IC as (I1 & I2 & I3); [lia|]. repeat split; congruence.
      * intros Hkm. rewrite H8. apply IB. lia.
Qed.

Lemma acc_aggregates j : (j < q)%nat -> aggregates (group cs k j) (hl_group j) (acc j (length (hl_group j))).
Proof.
  intros Hj. pose proof (hl_length Hj) as Hlen. pose proof qk as Q.
  assert (Hkl : (k <= length (hl_group j))%nat) by (rewrite Hlen; destruct (Nat.eqb_spec (S j) q); nia).
  destruct (@acc_fields j (length (hl_group j) - 1) Hj ltac:(lia)) as (HO & HT & HB & HV & HC & _).
  replace (S (length (hl_group j) - 1)) with (length (hl_group j)) in * by lia.
  specialize (HC Hkl). destruct HC as (HC1 & HC2 & HC3).
  rewrite Nat.min_l in HV by lia. rewrite firstn_all in HT, HB.
  assert (Hg : firstn k (hl_group j) = group cs k j).
  { unfold hl_group, group. destruct (S j =? q)%nat; [reflexivity|]. rewrite firstn_firstn. f_equal. lia. }
  assert (Hhd : hd (blank 0) (group cs k j) = cj j 0).
  { rewrite <- Hg. unfold cj. rewrite <- hl_nth by lia. destruct (hl_group j); [cbn in Hkl; lia|].
    destruct k as [|k']; [lia|]. reflexivity. }
  assert (Hgl : length (group cs k j) = k) by (rewrite <- Hg, firstn_length; lia).
  assert (Hla : last (group cs k j) (blank 0) = cj j (k - 1)).
  { rewrite last_nth, Hgl. rewrite <- Hg, nth_firstn_lt by lia. unfold cj. apply hl_nth; lia. }
  unfold aggregates. rewrite Hhd, Hla. rewrite acc_time.
  split; [rewrite cj_time by lia; lia|]. split; [exact HO|]. split; [exact HC1|].
  assert (Hin : forall c, In c (hl_group j) -> In c cs).
  { intros c Hc. unfold hl_group in Hc. destruct (S j =? q)%nat; [now apply skipn_In in Hc|].
    apply firstn_In, skipn_In in Hc. exact Hc. }
  split; [apply top_max; [|exact HT]; apply Forall_forall; intros x Hx; apply in_map_iff in Hx as (y & <- & Hy); now apply priced_in, Hin|].
  split; [apply bot_min; [|exact HB]; apply Forall_forall; intros x Hx; apply in_map_iff in Hx as (y & <- & Hy); now apply priced_in, Hin|].
  split; [rewrite HV, Hg; reflexivity|]. auto.
Qed.
End Merge.
End Any.
