(** * ThreadsProofs: goroutines with objects of their own do not disturb each other. *)
From Coq Require Import PeanoNat Lia List.
From Verif Require Import Base Containers TaTools Threads SpecThreads.
Import ListNotations.
Set Implicit Arguments.

Section Proofs.
Variable A : Type.
Local Notation cmd := (cmd A).
Local Notation World := (World A).
Local Notation act := (@act A).
Local Notation run := (@run A).
Local Notation alone := (@alone A).

Lemma setf_eq B (f : nat -> B) k v : setf f k v k = v.
Proof. unfold setf. now rewrite Nat.eqb_refl. Qed.
Lemma setf_ne B (f : nat -> B) k v j : j <> k -> setf f k v j = f j.
Proof. intros H. unfold setf. now rewrite (proj2 (Nat.eqb_neq _ _) H). Qed.

Lemma act_apart own t w w' : apart own w -> act t w w' -> apart own w'.
Proof.
  intros [H1 H2] HA. pose proof (H1 t) as Ht.
  assert (G : forall m o c, keeps own t c -> (forall k, mine (own k) (o k)) -> apart own (mkWorld m o (setf (wRun w) t c))).
  { intros m o c Hc Ho. split; [|exact Ho]. cbn [wRun]. intros t'. destruct (Nat.eq_dec t' t) as [->|Hn]; [now rewrite setf_eq|now rewrite setf_ne]. }
  destruct HA as [k f E|k s c E|o a n x f E Hn|s x f spare E Hn|z n f E|o a n i x c E Hn|s i x f E Hn Hx]; rewrite E in Ht; cbn [keeps] in Ht; apply G.
  - destruct Ht as [<- Ht]. now apply Ht.
  - exact H2.
  - apply Ht.
  - intros j. destruct (Nat.eq_dec j k) as [->|Hn]; [rewrite setf_eq; destruct Ht as [-> [Hs _]]; exact Hs|now rewrite setf_ne].
  - destruct Ht as [-> Ht]. now apply Ht.
  - exact H2.
  - destruct Ht as [_ Ht]. now apply Ht.
  - exact H2.
  - now apply Ht.
  - exact H2.
  - apply Ht.
  - exact H2.
  - now apply Ht.
  - exact H2.
Qed.
Lemma act_other own t t' w w' : apart own w -> act t' w w' -> t' <> t -> same_view own t w w'.
Proof.
  intros [H1 H2] HA Hd. pose proof (H1 t') as Ht.
  destruct HA as [k f E|k s c E|o a n x f E Hn|s x f spare E Hn|z n f E|o a n i x c E Hn|s i x f E Hn Hx]; rewrite E in Ht; cbn [keeps] in Ht; unfold same_view; cbn [wMem wObj wRun]; rewrite (setf_ne _ (k := t')) by auto.
  - repeat split.
  - split; [reflexivity|]. split; [|reflexivity]. intros j Hj. rewrite setf_ne; [reflexivity|]. intros ->. destruct Ht. congruence.
  - destruct Ht as [-> _]. unfold put. rewrite setf_ne by auto. repeat split.
  - rewrite setf_ne by auto. repeat split.
  - rewrite setf_ne by auto. repeat split.
  - destruct Ht as [-> _]. unfold put. rewrite setf_ne by auto. repeat split.
  - repeat split.
Qed.
Lemma view_cells own t (w1 w2 : World) s : same_view own t w1 w2 -> mine t s -> cells (wMem w1) s = cells (wMem w2) s.
Proof. intros (H & _) Hs. destruct s; [reflexivity|]. cbn in *. subst. now rewrite H. Qed.
Lemma act_view own t w1 w2 w1' : apart own w1 -> same_view own t w1 w2 -> act t w1 w1' -> exists w2', act t w2 w2' /\ same_view own t w1' w2'.
Proof.
  intros [H1 H2] V HA. pose proof (H1 t) as Ht. pose proof V as (Vm & Vo & Vr).
  destruct HA as [k f E|k s c E|o a n x f E Hn|s x f spare E Hn|z n f E|o a n i x c E Hn|s i x f E Hn Hx]; rewrite E in Ht; cbn [keeps] in Ht; rewrite Vr in E.
  - eexists. split; [apply act_load; exact E|]. unfold same_view; cbn [wMem wObj wRun]. rewrite !setf_eq. rewrite (Vo k) by apply Ht. repeat split; assumption.
  - eexists. split; [apply act_store; exact E|]. unfold same_view; cbn [wMem wObj wRun]. rewrite !setf_eq. split; [exact Vm|]. split; [|reflexivity]. intros j Hj.
    destruct (Nat.eq_dec j k) as [->|Hd]; [now rewrite !setf_eq|rewrite !setf_ne by exact Hd; now apply Vo].
  - destruct Ht as [Ho Ht]. cbn in Ho. subst o. eexists. split; [apply act_in_place; [exact E|rewrite <- Vm; exact Hn]|]. unfold same_view; cbn [wMem wObj wRun]. unfold put. rewrite !setf_eq, Vm. repeat split. exact Vo.
  - eexists. split; [apply act_moved with (spare := spare); [exact E|rewrite <- (view_cells s V (proj1 Ht)); exact Hn]|]. unfold same_view; cbn [wMem wObj wRun]. unfold rows_at. rewrite !setf_eq, (view_cells s V (proj1 Ht)), Vm. repeat split. exact Vo.
  - eexists. split; [apply act_make; exact E|]. unfold same_view; cbn [wMem wObj wRun]. rewrite !setf_eq, Vm. repeat split. exact Vo.
  - destruct Ht as [Ho Ht]. cbn in Ho. subst o. eexists. split; [eapply act_write; [exact E|exact Hn]|]. unfold same_view; cbn [wMem wObj wRun]. unfold put. rewrite !setf_eq, Vm. repeat split. exact Vo.
  - eexists. split; [eapply act_read; [exact E|exact Hn|rewrite <- (view_cells s V (proj1 Ht)); exact Hx]|]. unfold same_view; cbn [wMem wObj wRun]. rewrite !setf_eq. repeat split; assumption.
Qed.
Lemma run_apart own w w' : apart own w -> run w w' -> apart own w'.
Proof. intros H R. induction R as [|t w w1 w2 R IH HA]; [exact H|]. eapply act_apart; [exact (IH H)|exact HA]. Qed.
Lemma alone_snoc t w w1 w2 : alone t w w1 -> act t w1 w2 -> alone t w w2.
Proof. induction 1 as [|? ? ? HA _ IH]; intros Ha; [eapply alone_step; [exact Ha|apply alone_stop]|]. eapply alone_step; [exact HA|now apply IH]. Qed.
Lemma view_trans own t (a b c : World) : same_view own t a b -> same_view own t b c -> same_view own t a c.
Proof. intros (A1 & A2 & A3) (B1 & B2 & B3). repeat split; try congruence. intros k Hk. rewrite A2 by exact Hk. now apply B2. Qed.
Lemma view_sym own t (a b : World) : same_view own t a b -> same_view own t b a.
Proof. intros (A1 & A2 & A3). repeat split; try congruence. intros k Hk. symmetry. now apply A2. Qed.
Lemma projected own w w' t : apart own w -> run w w' -> exists v, alone t w v /\ same_view own t w' v.
Proof.
  intros H R. induction R as [w|t' w w1 w2 R IH HA]; [exists w; split; [apply alone_stop|repeat split]|]. destruct (IH H) as (v & Hv & V). pose proof (run_apart H R) as H1.
  destruct (Nat.eq_dec t' t) as [->|Hd].
  - destruct (act_view H1 V HA) as (v' & Hv' & V'). exists v'. split; [eapply alone_snoc; eassumption|exact V'].
  - exists v. split; [exact Hv|]. eapply view_trans; [apply view_sym; exact (act_other H1 HA Hd)|exact V].
Qed.

(** ** One goroutine on its own *)
(** whenever [t], on its own from [w], returns [s], [Q] holds *)
Definition ends (t : nat) (w : World) (Q : World -> Slice -> Prop) : Prop := forall w' s, alone t w w' -> wRun w' t = Return s -> Q w' s.
Lemma ends_act t w Q : (forall s, wRun w t <> Return s) -> (forall w1, act t w w1 -> ends t w1 Q) -> ends t w Q.
Proof. intros Hr H w' s Ha E. destruct Ha as [w|w w1 w2 Ha Hb]; [now destruct (Hr s)|]. exact (H w1 Ha w2 s Hb E). Qed.
Lemma ends_return t w s (Q : World -> Slice -> Prop) : wRun w t = Return s -> Q w s -> ends t w Q.
Proof. intros E HQ w' s' Ha E'. destruct Ha as [w|w w1 w2 Ha _]; [congruence|]. destruct Ha; congruence. Qed.
Ltac one_act := let w1 := fresh "w1" in let HA := fresh "HA" in let E := fresh "E" in intros w1 HA; inversion HA as [? ? E|? ? ? E|? ? ? ? ? E|? ? ? ? E|? ? ? E|? ? ? ? ? ? E|? ? ? ? E]; subst; clear HA;
  match goal with E1 : wRun ?w ?t = _, E2 : wRun ?w ?t = _ |- _ => rewrite E1 in E2; try discriminate E2; injection E2; clear E2; intros; subst end.
Lemma ends_load t w k f Q : wRun w t = Load k f -> ends t (mkWorld (wMem w) (wObj w) (setf (wRun w) t (f (wObj w k)))) Q -> ends t w Q.
Proof. intros E0 H. apply ends_act; [intros s; rewrite E0; discriminate|]. one_act. exact H. Qed.
Lemma ends_store t w k s c Q : wRun w t = Store k s c -> ends t (mkWorld (wMem w) (setf (wObj w) k s) (setf (wRun w) t c)) Q -> ends t w Q.
Proof. intros E0 H. apply ends_act; [intros s'; rewrite E0; discriminate|]. one_act. exact H. Qed.
Lemma ends_make t w z n f Q : wRun w t = Make z n f -> ends t (mkWorld (setf (wMem w) t (wMem w t ++ [repeat z n])) (wObj w) (setf (wRun w) t (f (Sl t (length (wMem w t)) n)))) Q -> ends t w Q.
Proof. intros E0 H. apply ends_act; [intros s'; rewrite E0; discriminate|]. one_act. exact H. Qed.
Lemma ends_write t w o a n i x c Q : wRun w t = Write (Sl o a n) i x c -> ends t (mkWorld (put (wMem w) o a i x) (wObj w) (setf (wRun w) t c)) Q -> ends t w Q.
Proof. intros E0 H. apply ends_act; [intros s'; rewrite E0; discriminate|]. one_act. exact H. Qed.
(** a slice that lies in memory *)
Definition lies (m : Arrays A) (s : Slice) : Prop := match s with Nil => True | Sl o a n => (a < length (m o))%nat /\ (n <= length (nth a (m o) []))%nat end.
Lemma firstn_upd_end (l : list A) n x : (n < length l)%nat -> firstn (S n) (upd l n x) = firstn n l ++ [x].
Proof. revert n. induction l as [|y l IH]; intros [|n] H; cbn in *; try lia; [reflexivity|]. f_equal. apply IH. lia. Qed.
Lemma nth_upd_same B (l : list B) n x d : (n < length l)%nat -> nth n (upd l n x) d = x.
Proof. revert n. induction l as [|y l IH]; intros [|n] H; cbn in *; try lia; [reflexivity|]. apply IH. lia. Qed.
Lemma skipn_upd_past (x : A) q : forall (l : list A) i, skipn (S i + q) (upd l i x) = skipn (S i + q) l.
Proof. induction l as [|y l IH]; intros [|i]; [reflexivity|reflexivity|reflexivity|]. exact (IH i). Qed.
Lemma upd_len B (l : list B) n x : length (upd l n x) = length l.
Proof. revert n. induction l as [|y l IH]; intros [|n]; cbn; auto. Qed.
Lemma ends_append t w s x f Q : wRun w t = Append s x f -> lies (wMem w) s ->
  (forall m s', lies m s' -> rows_at m s' = rows_at (wMem w) s ++ [x] -> ends t (mkWorld m (wObj w) (setf (wRun w) t (f s'))) Q) -> ends t w Q.
Proof.
  intros E0 Hl H. apply ends_act; [intros s'; rewrite E0; discriminate|]. intros w1 HA.
  destruct HA as [k f' E|k s' c E|o a n x' f' E Hn|s' x' f' spare E Hn|z n f' E|o a n i x' c E Hn|s' i x' f' E Hn Hx]; rewrite E in E0; try discriminate E0.
  - injection E0 as <- <- <-. destruct Hl as [L1 L2]. apply H.
    + cbn. unfold put. rewrite setf_eq, upd_len, nth_upd_same by exact L1. rewrite upd_len. lia.
    + unfold rows_at, put. cbn [slen cells]. rewrite setf_eq, nth_upd_same by exact L1. now apply firstn_upd_end.
  - injection E0 as -> -> ->. assert (Ls : length (rows_at (wMem w) s) = slen s).
    { unfold rows_at. apply firstn_length_le. destruct s; cbn in *; lia. }
    apply H.
    + cbn. rewrite setf_eq, app_length, nth_middle, app_length, Ls. cbn. lia.
    + unfold rows_at at 1. cbn [slen cells]. rewrite setf_eq, nth_middle. rewrite <- Ls. set (r := rows_at (wMem w) s). replace (S (length r)) with (length (r ++ [x])) by (rewrite app_length; cbn; lia).
      change (x :: spare) with ([x] ++ spare). rewrite app_assoc. rewrite firstn_app, Nat.sub_diag, firstn_all. cbn. now rewrite app_nil_r.
Qed.
Lemma ends_append_rows t k c Q r : forall w, wRun w t = append_rows_of k r c -> lies (wMem w) (wObj w k) ->
  (forall w', wRun w' t = c -> lies (wMem w') (wObj w' k) -> rows_at (wMem w') (wObj w' k) = rows_at (wMem w) (wObj w k) ++ r -> ends t w' Q) -> ends t w Q.
Proof.
  induction r as [|x r IH]; intros w E Hl H; cbn [append_rows_of] in E; [apply H; [exact E|exact Hl|now rewrite app_nil_r]|].
  eapply ends_load; [exact E|]. eapply ends_append; [cbn [wRun]; apply setf_eq|exact Hl|]. cbn [wMem wObj wRun]. intros m s Hm Hr.
  eapply ends_store; [cbn [wRun]; apply setf_eq|]. cbn [wMem wObj wRun]. apply IH; cbn [wMem wObj wRun]; [apply setf_eq|rewrite setf_eq; exact Hm|].
  rewrite setf_eq. intros w' E' Hl' Hr'. apply H; [exact E'|exact Hl'|]. rewrite Hr', Hr, <- app_assoc. reflexivity.
Qed.
Lemma ends_write_rows t k c Q r : forall w i o a n, wRun w t = write_rows_of k i r c -> wObj w k = Sl o a n -> (a < length (wMem w o))%nat -> n = length (nth a (wMem w o) []) -> (i + length r <= n)%nat ->
  (forall w', wRun w' t = c -> wObj w' k = Sl o a n -> nth a (wMem w' o) [] = firstn i (nth a (wMem w o) []) ++ r ++ skipn (i + length r) (nth a (wMem w o) []) -> ends t w' Q) -> ends t w Q.
Proof.
  induction r as [|x r IH]; intros w i o a n E Eo La Ln Li H; cbn [write_rows_of] in E.
  - apply H; [exact E|exact Eo|]. cbn. now rewrite Nat.add_0_r, firstn_skipn.
  - cbn [length] in *. eapply ends_load; [exact E|]. eapply ends_write; [cbn [wRun]; rewrite Eo; apply setf_eq|]. cbn [wMem wObj wRun].
    assert (P : nth a (put (wMem w) o a i x o) [] = upd (nth a (wMem w o) []) i x) by (unfold put; rewrite setf_eq; now apply nth_upd_same).
    apply IH with (i := S i) (o := o) (a := a) (n := n); cbn [wMem wObj wRun]; [apply setf_eq|exact Eo| | |lia|].
    + unfold put. rewrite setf_eq, upd_len. exact La.
    + rewrite P, upd_len. exact Ln.
    + intros w' E' Eo' Hm. apply H; [exact E'|exact Eo'|]. rewrite Hm, P, firstn_upd_end by lia. rewrite <- app_assoc. cbn [app]. f_equal. f_equal. f_equal.
      rewrite skipn_upd_past. f_equal. lia.
Qed.

(** GetData of an empty object *)
Lemma ends_get_append t k r w : wRun w t = get_data k (append_rows_of k r) -> wObj w k = Nil -> ends t w (fun w' s => rows_at (wMem w') s = r).
Proof.
  intros E Eo. eapply ends_load; [exact E|]. rewrite Eo. cbn [slen Nat.eqb].
  eapply ends_append_rows; [cbn [wRun]; apply setf_eq|cbn [wMem wObj]; rewrite Eo; exact I|]. cbn [wMem wObj]. rewrite Eo. intros w' E' Hl Hr. cbn in Hr.
  eapply ends_load; [exact E'|]. eapply ends_return; [cbn [wRun]; apply setf_eq|exact Hr].
Qed.
Lemma ends_get_make t k z r w : wRun w t = get_data k (make_rows_of z k r) -> wObj w k = Nil -> ends t w (fun w' s => rows_at (wMem w') s = r).
Proof.
  intros E Eo. eapply ends_load; [exact E|]. rewrite Eo. cbn [slen Nat.eqb].
  eapply ends_make; [cbn [wRun]; apply setf_eq|]. eapply ends_store; [cbn [wRun]; apply setf_eq|]. cbn [wMem wObj wRun].
  eapply ends_write_rows; cbn [wMem wObj wRun]; [apply setf_eq|apply setf_eq| | | |].
  - rewrite setf_eq, app_length. cbn. lia.
  - rewrite setf_eq, nth_middle. now rewrite repeat_length.
  - lia.
  - rewrite setf_eq, nth_middle. cbn [firstn app Nat.add]. intros w' E' Eo' Hm.
    rewrite skipn_all2 in Hm by (rewrite repeat_length; lia). rewrite app_nil_r in Hm.
    eapply ends_load; [exact E'|]. eapply ends_return; [cbn [wRun]; apply setf_eq|]. rewrite Eo'. unfold rows_at. cbn [slen cells wMem]. rewrite Hm. apply firstn_all.
Qed.

(** ** Schedules *)
(** [t] alone gets to [c] *)
Lemma alone_trans t w w1 w2 : alone t w w1 -> alone t w1 w2 -> alone t w w2.
Proof. induction 1; [auto|]. intros. eapply alone_step; [eassumption|auto]. Qed.
Lemma alone_run t w w' : alone t w w' -> run w w'.
Proof.
  assert (G : forall a b, alone t a b -> forall v, run v a -> run v b).
  { induction 1 as [|a b c HA _ IH]; intros v R; [exact R|]. apply IH. eapply run_step; eassumption. }
  intros H. eapply G; [exact H|apply run_stop].
Qed.
Lemma run_trans w w1 w2 : run w w1 -> run w1 w2 -> run w w2.
Proof. intros H R. induction R as [|t a b c R IH HA]; [exact H|]. eapply run_step; [exact (IH H)|exact HA]. Qed.
Lemma alone_others t t' w w' : alone t w w' -> t' <> t -> wRun w' t' = wRun w t'.
Proof. induction 1 as [|a b c HA _ IH]; intros Hd; [reflexivity|]. rewrite (IH Hd). destruct HA; cbn [wRun]; now rewrite setf_ne. Qed.
Lemma can_append t w s x f : wRun w t = Append s x f -> lies (wMem w) s ->
  exists m s', act t w (mkWorld m (wObj w) (setf (wRun w) t (f s'))) /\ lies m s' /\ rows_at m s' = rows_at (wMem w) s ++ [x].
Proof.
  intros E Hl. assert (Ls : length (rows_at (wMem w) s) = slen s).
  { unfold rows_at. apply firstn_length_le. destruct s; cbn in *; lia. }
  destruct (le_lt_dec (length (cells (wMem w) s)) (slen s)) as [Hc|Hc].
  - exists (setf (wMem w) t (wMem w t ++ [rows_at (wMem w) s ++ [x]])), (Sl t (length (wMem w t)) (S (slen s))). split; [now apply act_moved with (spare := [])|]. split.
    + cbn. rewrite setf_eq, app_length, nth_middle, app_length, Ls. cbn. lia.
    + unfold rows_at at 1. cbn [slen cells]. rewrite setf_eq, nth_middle. apply firstn_all2. rewrite app_length, Ls. cbn. lia.
  - destruct s as [|o a n]; [cbn in Hc; lia|]. destruct Hl as [L1 L2]. cbn [cells slen] in Hc. exists (put (wMem w) o a n x), (Sl o a (S n)). split; [now apply act_in_place|]. split.
    + cbn. unfold put. rewrite setf_eq, upd_len, nth_upd_same by exact L1. rewrite upd_len. lia.
    + unfold rows_at, put. cbn [slen cells]. rewrite setf_eq, nth_upd_same by exact L1. now apply firstn_upd_end.
Qed.
Lemma can_append_rows t k c r : forall w, wRun w t = append_rows_of k r c -> lies (wMem w) (wObj w k) ->
  exists w', alone t w w' /\ wRun w' t = c /\ lies (wMem w') (wObj w' k) /\ rows_at (wMem w') (wObj w' k) = rows_at (wMem w) (wObj w k) ++ r.
Proof.
  induction r as [|x r IH]; intros w E Hl; cbn [append_rows_of] in E; [exists w; split; [apply alone_stop|]; rewrite app_nil_r; auto|].
  set (w1 := mkWorld (wMem w) (wObj w) (setf (wRun w) t (Append (wObj w k) x (fun s' => Store k s' (append_rows_of k r c))))).
  assert (A1 : act t w w1) by (exact (act_load t w E)).
  destruct (@can_append t w1 (wObj w k) x (fun s' => Store k s' (append_rows_of k r c))) as (m & s & A2 & L2 & R2); [apply setf_eq|exact Hl|]. cbn [w1 wObj wRun wMem] in A2, R2.
  set (w2 := mkWorld m _ _) in A2.
  assert (A3 : act t w2 (mkWorld m (setf (wObj w) k s) (setf (wRun w2) t (append_rows_of k r c)))) by (apply (act_store t w2); apply setf_eq).
  set (w3 := mkWorld m _ _) in A3. destruct (IH w3) as (w' & A4 & E4 & L4 & R4); [apply setf_eq|cbn [w3 wMem wObj]; rewrite setf_eq; exact L2|].
  exists w'. split; [eapply alone_step; [exact A1|]; eapply alone_step; [exact A2|]; eapply alone_step; [exact A3|exact A4]|]. split; [exact E4|]. split; [exact L4|].
  rewrite R4. cbn [w3 wMem wObj]. rewrite setf_eq, R2, <- app_assoc. reflexivity.
Qed.
Lemma can_load t w k f : wRun w t = Load k f -> act t w (mkWorld (wMem w) (wObj w) (setf (wRun w) t (f (wObj w k)))).
Proof. apply act_load. Qed.
Lemma can_return t w k : wRun w t = Load k Return -> exists w', alone t w w' /\ wRun w' t = Return (wObj w k) /\ wMem w' = wMem w /\ wObj w' = wObj w.
Proof. intros E. eexists. split; [eapply alone_step; [exact (can_load t w E)|apply alone_stop]|]. split; [apply setf_eq|split; reflexivity]. Qed.
(** a second goroutine finds rows and returns them *)
Lemma can_get_filled t w k calc : wRun w t = get_data k calc -> slen (wObj w k) <> 0%nat ->
  exists w', alone t w w' /\ wRun w' t = Return (wObj w k) /\ wMem w' = wMem w /\ wObj w' = wObj w.
Proof.
  intros E Hn. pose proof (can_load t w E) as A1. cbv beta in A1. rewrite (proj2 (Nat.eqb_neq _ _) Hn) in A1.
  destruct (can_return t (mkWorld (wMem w) (wObj w) (setf (wRun w) t (Load k Return))) (k := k)) as (w' & A2 & E2 & M2 & O2); [apply setf_eq|].
  exists w'. split; [eapply alone_step; [exact A1|exact A2]|]. cbn [wMem wObj] in *. auto.
Qed.
End Proofs.
