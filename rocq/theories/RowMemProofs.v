(** * RowMemProofs: lemmas about rows in memory. *)
From Coq Require Import String.
From Verif Require Import Base Num Sides Klines TaTools IndBase IndTrend IndChannel IndVolume IndOsc IndAll IndTools IndLife
  PropLive RowMem SpecRows.
Set Implicit Arguments.
Unset Strict Implicit.

Lemma upd_over A (l : list A) k v : (length l <= k)%nat -> upd l k v = l.
Proof. revert k. induction l as [|x l IH]; intros [|k] H; cbn in *; try reflexivity; [lia|]. f_equal. apply IH. lia. Qed.
Lemma firstn_upd_over A (l : list A) n k v : (n <= k)%nat -> firstn n (upd l k v) = firstn n l.
Proof.
  revert n k. induction l as [|x l IH]; intros [|n] [|k] H; cbn; try reflexivity; try lia. f_equal. apply IH. lia.
Qed.
Lemma firstn_S_upd A (l : list A) n v : (n < length l)%nat -> firstn (S n) (upd l n v) = firstn n l ++ [v].
Proof.
  revert n. induction l as [|x l IH]; intros [|n] H; cbn in H; try lia; [reflexivity|].
  cbn [upd]. rewrite !firstn_cons. cbn [app]. f_equal. apply IH. lia.
Qed.
Lemma firstn_upd_in A (l : list A) n k v : (k < n)%nat -> firstn n (upd l k v) = upd (firstn n l) k v.
Proof. revert n k. induction l as [|x l IH]; intros [|n] [|k] H; cbn; try reflexivity; try lia. f_equal. apply IH. lia. Qed.

(** Obv too only adds rows *)
Lemma for_prefix A (lo hi : Z) (b : Z -> list A -> res (list A)) :
  (forall i d d1, b i d = Ok d1 -> exists e, d1 = d ++ e) -> forall d d1, for_ lo hi b d = Ok d1 -> exists e, d1 = d ++ e.
Proof.
  intros H. unfold for_. generalize (Z.to_nat (hi - lo)). intros n. revert lo. induction n as [|n IH]; intros lo d d1 E; cbn [loop] in E.
  - injection E as <-. exists []. now rewrite app_nil_r.
  - apply bind_ok in E as (d2 & E1 & E2). apply H in E1 as (e & ->). apply IH in E2 as (e' & ->). exists (e ++ e'). now rewrite app_assoc.
Qed.
Lemma append_prefix (N : Num) (I : Indicator (N := N)) p kl rows r : In I append_style -> Calculation I p kl rows = Ok r -> exists e, r = rows ++ e.
Proof.
  intros HI E.
  assert (D : I = I_Obv \/ I <> I_Obv).
  { unfold append_style in HI. cbn [In] in HI. repeat (destruct HI as [<-|HI]; [first [left; reflexivity|right; intros X; apply (f_equal (@iname N)) in X; discriminate X]|]). destruct HI. }
  destruct D as [->|D].
  - cbn [Calculation I_Obv] in E. unfold obv_calc in E. apply bind_ok in E as (o & _ & E). revert E. apply for_prefix.
    intros i d d1 E. apply bind_ok in E as (v & _ & E). apply bind_ok in E as (t & _ & E). injection E as <-. now eexists.
  - rewrite append_any in E by assumption. apply bind_ok in E as (e & _ & E). injection E as <-. now exists e.
Qed.

Section R.
Context {N : Num}.
Variable I : Indicator (N := N).
Implicit Types (m : RowMem I) (s d : RowSlice) (h : Heap I).

Lemma in_length m s : (rsLen s <= length (array_in m s))%nat -> length (rows_in m s) = rsLen s.
Proof. intros H. unfold rows_in. rewrite firstn_length. lia. Qed.
Lemma array_app m t s : (rsArr s < length m)%nat -> array_in (m ++ t) s = array_in m s.
Proof. intros H. unfold array_in. now rewrite app_nth1. Qed.
Lemma rows_app m t s : (rsArr s < length m)%nat -> rows_in (m ++ t) s = rows_in m s.
Proof. intros H. unfold rows_in. now rewrite array_app. Qed.
Lemma array_new m a s : rsArr s = length m -> array_in (m ++ [a]) s = a.
Proof. intros H. unfold array_in. rewrite H, app_nth2, Nat.sub_diag by lia. reflexivity. Qed.
Lemma array_upd m a l s : (a < length m)%nat -> array_in (upd m a l) s = if Nat.eqb (rsArr s) a then l else array_in m s.
Proof.
  intros H. unfold array_in. destruct (Nat.eqb (rsArr s) a) eqn:E.
  - apply Nat.eqb_eq in E. rewrite E. now apply nth_upd_eq.
  - apply Nat.eqb_neq in E. apply nth_upd_ne. congruence.
Qed.
(** arrays never shrink or disappear *)
Definition later m m' : Prop := (length m <= length m')%nat /\ forall a, (a < length m)%nat -> length (nth a m' []) = length (nth a m []).
Lemma later_refl m : later m m. Proof. split; auto. Qed.
Lemma later_trans m1 m2 m3 : later m1 m2 -> later m2 m3 -> later m1 m3.
Proof. intros [A1 B1] [A2 B2]. split; [lia|]. intros a Ha. rewrite B2, B1; lia. Qed.
Lemma later_app m t : later m (m ++ t).
Proof. split; [rewrite app_length; lia|]. intros a Ha. now rewrite app_nth1. Qed.
Lemma later_upd m a i v : later m (upd m a (upd (nth a m []) i v)).
Proof.
  split; [now rewrite upd_length|]. intros b Hb. destruct (Nat.eq_dec b a) as [->|E]; [rewrite nth_upd_eq by exact Hb; apply upd_length|].
  now rewrite nth_upd_ne by congruence.
Qed.

(** a slice that lies in memory *)
Definition lies m s : Prop := (rsArr s < length m)%nat /\ (rsLen s <= length (array_in m s))%nat.
Lemma lies_later m m' s : later m m' -> lies m s -> lies m' s.
Proof. intros [L A] [H1 H2]. split; [lia|]. unfold array_in in *. now rewrite A. Qed.

(** what one append leaves alone *)
Lemma append1_frame m d x m' d' : append1 m d x m' d' -> lies m d ->
  later m m' /\ lies m' d' /\ rows_in m' d' = rows_in m d ++ [x] /\ rsLen d' = S (rsLen d) /\
  (rsArr d' = rsArr d \/ rsArr d' = length m) /\
  forall s, (rsArr s < length m)%nat -> (rsArr s = rsArr d -> (rsLen s <= rsLen d)%nat) -> rows_in m' s = rows_in m s.
Proof.
  intros A [L1 L2]. destruct A as [H|spare H].
  - split; [apply later_upd|]. split.
    { split; cbn [rsArr rsLen]; [rewrite upd_length; exact L1|]. rewrite array_upd by exact L1. cbn [rsArr]. rewrite Nat.eqb_refl, upd_length. exact H. }
    split; [|split; [reflexivity|split; [now left|]]].
    + unfold rows_in. rewrite array_upd by exact L1. cbn [rsArr rsLen]. rewrite Nat.eqb_refl. apply firstn_S_upd. exact H.
    + intros s Hs Hl. unfold rows_in. rewrite array_upd by exact L1. destruct (Nat.eqb (rsArr s) (rsArr d)) eqn:E; [|reflexivity].
      apply Nat.eqb_eq in E. rewrite firstn_upd_over by auto. unfold array_in. now rewrite E.
  - assert (EL : length (rows_in m d) = rsLen d) by (now apply in_length).
    split; [apply later_app|]. split.
    { split; cbn [rsArr rsLen]; [rewrite app_length; cbn; lia|]. rewrite array_new by reflexivity. rewrite app_length, EL. cbn. lia. }
    split; [|split; [reflexivity|split; [now right|]]].
    + unfold rows_in at 1. rewrite array_new by reflexivity. cbn [rsLen].
      replace (rows_in m d ++ x :: spare) with ((rows_in m d ++ [x]) ++ spare) by now rewrite <- app_assoc.
      rewrite firstn_app, firstn_all2 by (rewrite app_length, EL; cbn; lia). rewrite app_length, EL. cbn [length].
      replace (S (rsLen d) - (rsLen d + 1))%nat with 0%nat by lia. cbn. now rewrite app_nil_r.
    + intros s Hs _. now apply rows_app.
Qed.
Lemma append_all_frame m d l m' d' : append_all m d l m' d' -> lies m d ->
  later m m' /\ lies m' d' /\ rows_in m' d' = rows_in m d ++ l /\ (rsLen d <= rsLen d')%nat /\
  (rsArr d' = rsArr d \/ (length m <= rsArr d')%nat) /\
  forall s, (rsArr s < length m)%nat -> (rsArr s = rsArr d -> (rsLen s <= rsLen d)%nat) -> rows_in m' s = rows_in m s.
Proof.
  induction 1 as [m d|m d x l m1 d1 m2 d2 A _ IH]; intros L.
  - split; [apply later_refl|]. split; [exact L|]. rewrite app_nil_r. repeat split; auto.
  - destruct (append1_frame A L) as (F1 & F2 & F3 & F4 & F5 & F6). specialize (IH F2) as (G1 & G2 & G3 & G4 & G5 & G6).
    split; [eapply later_trans; eassumption|]. split; [exact G2|]. split; [rewrite G3, F3, <- app_assoc; reflexivity|].
    split; [lia|]. pose proof (proj1 F1). split; [destruct G5 as [->|G5]; [destruct F5 as [->| ->]|]; [now left|right; lia|right; lia]|].
    intros s Hs Hl. rewrite G6, F6; auto; [lia|]. intros E. destruct F5 as [F5|F5]; [|lia]. rewrite F5 in E. specialize (Hl E). lia.
Qed.
Lemma calculates_frame m d p kl m' d' : calculates m d p kl m' d' -> lies m d ->
  later m m' /\ lies m' d' /\ (rsArr d' = rsArr d /\ (rsLen d <= rsLen d')%nat \/ (length m <= rsArr d')%nat) /\
  (forall s, (rsArr s < length m)%nat -> (rsArr s = rsArr d -> (rsLen s <= rsLen d)%nat) -> rows_in m' s = rows_in m s) /\
  Calculation I p kl (rows_in m d) = Ok (rows_in m' d').
Proof.
  intros (r & E & C) L. destruct C as [[HI A]|[(HI & -> & ->)|(_ & spare & -> & ->)]].
  - destruct (append_prefix HI E) as (e & ->). rewrite skipn_app, skipn_all2 in A by (rewrite in_length; [lia|apply L]).
    rewrite in_length, Nat.sub_diag in A by apply L. cbn [skipn app] in A.
    destruct (append_all_frame A L) as (F1 & F2 & F3 & F4 & F5 & F6). rewrite F3. repeat split; auto; try apply F1; try apply F2.
    destruct F5 as [F5|F5]; [left; auto|now right].
  - split; [apply later_app|]. split; [|split; [right; cbn; lia|split; [intros s Hs _; now apply rows_app|]]].
    + split; cbn [rsArr rsLen]; [rewrite app_length; cbn; lia|]. now rewrite array_new.
    + rewrite E. f_equal. unfold rows_in. rewrite array_new by reflexivity. cbn [rsLen]. now rewrite firstn_all.
  - split; [apply later_app|]. split; [|split; [right; cbn; lia|split; [intros s Hs _; now apply rows_app|]]].
    + split; cbn [rsArr rsLen]; [rewrite app_length; cbn; lia|]. rewrite array_new by reflexivity. rewrite app_length. lia.
    + rewrite E. f_equal. unfold rows_in. rewrite array_new by reflexivity. cbn [rsLen]. rewrite firstn_app, Nat.sub_diag, firstn_all. cbn. now rewrite app_nil_r.
Qed.

(** ** What holds in every history *)
Record sound h : Prop := mkSound {
  s_nil : length (mem h) <> 0%nat /\ nth 0 (mem h) [] = [];
  s_objs : forall k d, nth_error (objs h) k = Some d -> lies (mem h) d;
  s_held : forall s, In s (held h) -> lies (mem h) s;
  s_own : forall k k' d d', k <> k' -> nth_error (objs h) k = Some d -> nth_error (objs h) k' = Some d' -> rsArr d = rsArr d' -> rsArr d = 0%nat }.
Lemma nth_upd_cases A (l : list A) k v j x : nth_error (upd l k v) j = Some x ->
  (j = k /\ x = v /\ (k < length l)%nat) \/ (j <> k /\ nth_error l j = Some x).
Proof.
  intros E. assert (Hj : (j < length l)%nat) by (rewrite <- (upd_length l k v); apply nth_error_Some; congruence).
  destruct (Nat.eq_dec j k) as [->|Ne]; [left|right; rewrite nth_error_upd_ne in E by congruence; auto].
  rewrite nth_error_upd_eq in E by exact Hj. split; [reflexivity|]. split; congruence.
Qed.
Lemma in_upd A (l : list A) k v x : In x (upd l k v) -> x = v \/ In x l.
Proof. revert k. induction l as [|y l IH]; intros [|k] H; cbn in *; try tauto; destruct H as [->|H]; auto. apply IH in H. tauto. Qed.
Lemma nil_later m m' : later m m' -> length m <> 0%nat /\ nth 0 m [] = [] -> length m' <> 0%nat /\ nth 0 m' [] = [].
Proof. intros [L A] [H1 H2]. split; [lia|]. specialize (A 0%nat ltac:(lia)). rewrite H2 in A. now destruct (nth 0 m' []). Qed.
Lemma lies_nil m : length m <> 0%nat /\ nth 0 m [] = [] -> lies m nil_slice.
Proof. intros [H1 H2]. split; cbn; [lia|]. lia. Qed.
Lemma sound_calc h k d p kl m' d' hs : sound h -> nth_error (objs h) k = Some d -> calculates (mem h) d p kl m' d' ->
  (forall s, In s hs -> In s (held h) \/ s = d') -> sound (mkHeap m' (upd (objs h) k d') hs).
Proof.
  intros S Hk C Hh. destruct (calculates_frame C (s_objs S Hk)) as (F1 & F2 & F3 & F4 & _). constructor; cbn [mem objs held].
  - exact (nil_later F1 (s_nil S)).
  - intros j x E. apply nth_upd_cases in E as [(-> & -> & _)|[_ E]]; [exact F2|]. exact (lies_later F1 (s_objs S E)).
  - intros s Hs. destruct (Hh s Hs) as [Hi|Hi]; [exact (lies_later F1 (s_held S Hi))|subst s; exact F2].
  - assert (X : forall j x, j <> k -> nth_error (objs h) j = Some x -> rsArr x = rsArr d' -> rsArr x = 0%nat).
    { intros j x Nj E Ea. destruct F3 as [[F3 _]|F3]; [apply (s_own S Nj E Hk); congruence|]. pose proof (proj1 (s_objs S E)). lia. }
    intros j j' x x' Nj E E' Ea. apply nth_upd_cases in E as [(-> & -> & _)|[Ne E]]; apply nth_upd_cases in E' as [(-> & -> & _)|[Ne' E']].
    + congruence.
    + rewrite Ea. apply (X j' x'); auto.
    + apply (X j x); auto.
    + apply (s_own S Nj E E' Ea).
Qed.
Lemma sound_lib h h1 : lib_step h h1 -> sound h -> sound h1.
Proof.
  intros St S. destruct St as [|k d p kl m' d' Hk C|k d p kl m' d' Hk H0 C|k d Hk H0|k d Hk].
  - constructor; cbn [mem objs held]; try apply S.
    + intros k d E. destruct (Nat.lt_ge_cases k (length (objs h))) as [Hl|Hl]; [rewrite nth_error_app1 in E by exact Hl; exact (s_objs S E)|].
      rewrite nth_error_app2 in E by exact Hl. destruct (k - length (objs h))%nat as [|j]; [|destruct j; discriminate E]. injection E as <-. apply lies_nil. apply S.
    + assert (X : forall k x, nth_error (objs h ++ [nil_slice]) k = Some x -> (k < length (objs h))%nat /\ nth_error (objs h) k = Some x \/ k = length (objs h) /\ rsArr x = 0%nat).
      { intros k x E. destruct (Nat.lt_ge_cases k (length (objs h))) as [Hl|Hl]; [left; rewrite nth_error_app1 in E by exact Hl; auto|right].
        rewrite nth_error_app2 in E by exact Hl. destruct (k - length (objs h))%nat as [|j] eqn:Ek; [|destruct j; discriminate E]. injection E as <-. split; [lia|reflexivity]. }
      intros k k' d d' Nk E E' Ea. apply X in E as [[L E]|[L E]]; apply X in E' as [[L' E']|[L' E']]; try congruence. exact (s_own S Nk E E' Ea).
  - apply (sound_calc S Hk C). auto.
  - apply (sound_calc S Hk C). intros s Hs. apply in_app_or in Hs as [Hs|[<-|[]]]; auto.
  - constructor; cbn [mem objs held]; try apply S. intros s Hs. apply in_app_or in Hs as [Hs|[<-|[]]]; [apply S, Hs|exact (s_objs S Hk)].
  - constructor; cbn [mem objs held]; try apply S.
    + intros j x E. apply nth_upd_cases in E as [(_ & -> & _)|[_ E]]; [apply lies_nil; apply S|exact (s_objs S E)].
    + intros j j' x x' Nj E E' Ea. apply nth_upd_cases in E as [(-> & -> & _)|[Ne E]]; apply nth_upd_cases in E' as [(-> & -> & _)|[Ne' E']].
      * congruence.
      * reflexivity.
      * exact Ea.
      * exact (s_own S Nj E E' Ea).
Qed.
Lemma sound_own h s h1 : own_step h s h1 -> In s (held h) -> sound h -> sound h1 /\ later (mem h) (mem h1).
Proof.
  intros St Hs S. destruct St as [i x Hi|j x m' s' Hj A|j n Hj Hn].
  - assert (F : later (mem h) (upd (mem h) (rsArr s) (upd (array_in (mem h) s) i x))) by apply later_upd. split; [|exact F].
    constructor; cbn [mem objs held].
    + exact (nil_later F (s_nil S)).
    + intros k d E. exact (lies_later F (s_objs S E)).
    + intros t Ht. exact (lies_later F (s_held S Ht)).
    + apply S.
  - destruct (append1_frame A (s_held S Hs)) as (F1 & F2 & _). split; [|exact F1]. constructor; cbn [mem objs held].
    + exact (nil_later F1 (s_nil S)).
    + intros k d E. exact (lies_later F1 (s_objs S E)).
    + intros t Ht. apply in_upd in Ht as [->|Ht]; [exact F2|exact (lies_later F1 (s_held S Ht))].
    + apply S.
  - split; [|apply later_refl]. constructor; cbn [mem objs held]; try apply S.
    intros t Ht. apply in_upd in Ht as [->|Ht]; [|apply S, Ht]. split; [exact (proj1 (s_held S Hs))|exact Hn].
Qed.
Lemma sound_start : sound (start I).
Proof.
  constructor; cbn.
  - split; [discriminate|reflexivity].
  - intros [|k] d E; discriminate E.
  - tauto.
  - intros [|k] k' d d' _ E; discriminate E.
Qed.
Lemma sound_runs (ok : RowSlice -> Prop) h h' : runs ok h h' -> sound h -> sound h'.
Proof.
  induction 1 as [|h h1 h2 St _ IH|h s h1 h2 Hs _ St _ IH]; intros S; [exact S|apply IH; exact (sound_lib St S)|apply IH; exact (proj1 (sound_own St Hs S))].
Qed.
Lemma sound_reached h : reached h -> sound h.
Proof. intros R. exact (sound_runs R sound_start). Qed.

(** ** A slice and what may happen to its rows *)
(** [s] lies in memory and no object has fewer rows in the same array *)
Definition below h s : Prop := lies (mem h) s /\ forall k d, nth_error (objs h) k = Some d -> rsArr d = rsArr s -> (rsLen s <= rsLen d)%nat.
Lemma below_lib h h1 s : lib_step h h1 -> sound h -> below h s -> below h1 s /\ rows_in (mem h1) s = rows_in (mem h) s.
Proof.
  intros St S [L B].
  assert (C0 : forall k d p kl m' d', nth_error (objs h) k = Some d -> calculates (mem h) d p kl m' d' -> forall hs,
     below (mkHeap m' (upd (objs h) k d') hs) s /\ rows_in m' s = rows_in (mem h) s).
  { intros k d p kl m' d' Hk C hs. destruct (calculates_frame C (s_objs S Hk)) as (F1 & F2 & F3 & F4 & _). split; [split|].
    - exact (lies_later F1 L).
    - cbn [objs]. intros j x E Ea. apply nth_upd_cases in E as [(-> & -> & _)|[_ E]]; [|exact (B j x E Ea)].
      destruct F3 as [[F3 F3']|F3]; [|pose proof (proj1 L); lia]. specialize (B k d Hk ltac:(congruence)). lia.
    - apply F4; [apply L|]. intros Ea. apply (B k d Hk). congruence. }
  assert (N0 : rsArr s = 0%nat -> rsLen s = 0%nat).
  { intros E. destruct L as [_ L]. unfold array_in in L. rewrite E, (proj2 (s_nil S)) in L. cbn in L. lia. }
  destruct St as [|k d p kl m' d' Hk C|k d p kl m' d' Hk H0 C|k d Hk H0|k d Hk]; cbn [mem]; try (eapply C0; eassumption).
  - split; [|reflexivity]. split; [exact L|]. cbn [objs]. intros k d E Ea.
    destruct (Nat.lt_ge_cases k (length (objs h))) as [Hl|Hl]; [rewrite nth_error_app1 in E by exact Hl; exact (B k d E Ea)|].
    rewrite nth_error_app2 in E by exact Hl. destruct (k - length (objs h))%nat as [|j]; [|destruct j; discriminate E]. injection E as <-. cbn in Ea. rewrite N0 by congruence. lia.
  - split; [|reflexivity]. split; [exact L|]. exact B.
  - split; [|reflexivity]. split; [exact L|]. cbn [objs]. intros j x E Ea. apply nth_upd_cases in E as [(_ & -> & _)|[_ E]]; [|exact (B j x E Ea)].
    cbn in Ea. rewrite N0 by congruence. lia.
Qed.
Lemma own_frame h s h1 t : own_step h s h1 -> In s (held h) -> sound h -> lies (mem h) t -> rsArr s <> rsArr t -> rows_in (mem h1) t = rows_in (mem h) t /\ objs h1 = objs h.
Proof.
  intros St Hs S Lt Na. destruct St as [i x Hi|j x m' s' Hj A|j n Hj Hn]; cbn [mem objs]; split; try reflexivity.
  - unfold rows_in. rewrite array_upd by apply (s_held S Hs). replace (Nat.eqb (rsArr t) (rsArr s)) with false; [reflexivity|].
    symmetry. apply Nat.eqb_neq. congruence.
  - destruct (append1_frame A (s_held S Hs)) as (_ & _ & _ & _ & _ & F). apply F; [apply Lt|]. intros E. congruence.
Qed.
Lemma below_runs (ok : RowSlice -> Prop) h h' s : (forall t, ok t -> rsArr t <> rsArr s) -> runs ok h h' -> sound h -> below h s -> below h' s /\ rows_in (mem h') s = rows_in (mem h) s.
Proof.
  intros Hok. induction 1 as [|h h1 h2 St _ IH|h t h1 h2 Ht Ho St _ IH]; intros S B; [auto| |].
  - destruct (below_lib St S B) as [B1 E1]. destruct (IH (sound_lib St S) B1) as [B2 E2]. split; [exact B2|congruence].
  - destruct (sound_own St Ht S) as [S1 F1]. destruct (own_frame St Ht S (proj1 B) (Hok t Ho)) as [E1 E2].
    assert (B1 : below h1 s). { split; [exact (lies_later F1 (proj1 B))|]. rewrite E2. exact (proj2 B). }
    destruct (IH S1 B1) as [B2 E3]. split; [exact B2|congruence].
Qed.
Lemma given_below h k s : sound h -> given h k s -> below h s.
Proof.
  intros S (Hk & H0 & Hh). split; [exact (s_objs S Hk)|]. intros j d E Ea. destruct (Nat.eq_dec j k) as [->|Ne]; [rewrite Hk in E; injection E as <-; lia|].
  exfalso. apply H0. assert (rsArr d = 0%nat) by exact (s_own S Ne E Hk Ea). destruct (s_objs S Hk) as [_ L]. unfold array_in in L. rewrite <- Ea, H, (proj2 (s_nil S)) in L. cbn in L. lia.
Qed.
End R.
