(** * ChanConf: with one reader and one writer per channel the scheduler does not matter. *)
From Verif Require Import Base Chan.
Set Implicit Arguments.
Open Scope nat_scope.

Section Conf.
Variable V : Type.
Notation proc := (proc V). Notation cfg := (cfg V). Notation node := (node V). Notation chan := (chan V).

(** ** entries *)
Lemma nth_at (f : node -> node) (s : cfg) i j :
  nth_error (at_ f s i) j = if Nat.eqb i j then option_map f (nth_error s j) else nth_error s j.
Proof.
  revert i j; induction s as [|x s IH]; intros [|i] [|j]; try reflexivity.
  - cbn. destruct (Nat.eqb i j); reflexivity.
  - cbn [at_ nth_error]. rewrite IH. reflexivity.
Qed.
Lemma at_length (f : node -> node) (s : cfg) i : length (at_ f s i) = length s.
Proof. revert i; induction s as [|x s IH]; intros [|i]; cbn; auto. Qed.
Lemma proc_set_proc (s : cfg) i p j :
  proc_at (set_proc s i p) j = if Nat.eqb i j then option_map (fun _ => p) (proc_at s j) else proc_at s j.
Proof.
  unfold proc_at, set_proc. rewrite nth_at. destruct (Nat.eqb i j); [|reflexivity]. now destruct (nth_error s j).
Qed.
Lemma chan_set_proc (s : cfg) i p j : chan_at (set_proc s i p) j = chan_at s j.
Proof.
  unfold chan_at, set_proc. rewrite nth_at. destruct (Nat.eqb i j); [|reflexivity]. now destruct (nth_error s j).
Qed.
Lemma proc_set_chan (s : cfg) i p j : proc_at (set_chan s i p) j = proc_at s j.
Proof.
  unfold proc_at, set_chan. rewrite nth_at. destruct (Nat.eqb i j); [|reflexivity]. now destruct (nth_error s j).
Qed.
Lemma chan_set_chan (s : cfg) i p j :
  chan_at (set_chan s i p) j = if Nat.eqb i j then option_map (fun _ => p) (chan_at s j) else chan_at s j.
Proof.
  unfold chan_at, set_chan. rewrite nth_at. destruct (Nat.eqb i j); [|reflexivity]. now destruct (nth_error s j).
Qed.
Lemma set_proc_length (s : cfg) i p : length (set_proc s i p) = length s. Proof. apply at_length. Qed.
Lemma set_chan_length (s : cfg) i p : length (set_chan s i p) = length s. Proof. apply at_length. Qed.
Lemma cfg_ext (s t : cfg) : length s = length t -> (forall i, proc_at s i = proc_at t i) -> (forall i, chan_at s i = chan_at t i) -> s = t.
Proof.
  revert t; induction s as [|[c p] s IH]; intros [|[d q] t] L HP HC; try discriminate; [reflexivity|].
  pose proof (HP 0) as H1. pose proof (HC 0) as H2. cbn in H1, H2. f_equal; [congruence|].
  apply IH; [now injection L|intros i; exact (HP (S i))|intros i; exact (HC (S i))].
Qed.
Ltac gs := repeat (rewrite proc_set_proc || rewrite chan_set_proc || rewrite proc_set_chan || rewrite chan_set_chan).

(** ** who uses which channel, now and later *)
CoInductive uses (R W : nat -> Prop) : proc -> Prop :=
| u_done r : uses R W (Done r)
| u_crash : uses R W (@Crash V)
| u_tau k : uses R W k -> uses R W (Tau k)
| u_recv c k : R c -> (forall v, uses R W (k v)) -> uses R W (Recv c k)
| u_send c v k : W c -> uses R W k -> uses R W (Send c v k)
| u_close c k : W c -> uses R W k -> uses R W (Close c k).
Definition owned (rd wr : nat -> nat) (s : cfg) : Prop :=
  forall i p, proc_at s i = Some p -> uses (fun c => rd c = i) (fun c => wr c = i) p.

Section Own.
Variables rd wr : nat -> nat.
Notation us i := (uses (fun c => rd c = i) (fun c => wr c = i)).

Lemma act_uses c p ch p' ch' i : act c p ch p' ch' -> us i p -> us i p'.
Proof. intros A U. destruct A; inversion U; subst; auto; constructor. Qed.
Lemma owned_step s t : owned rd wr s -> step s t -> owned rd wr t.
Proof.
  intros O St. destruct St as [s i k H|s i c p ch p' ch' H1 H2 A|s i j c v k h ch H1 H2 H3 H4 H5 H6]; intros x q; gs.
  - destruct (Nat.eqb_spec i x) as [<-|]; [|apply O]. rewrite H. intros E; injection E as <-.
    specialize (O _ _ H). now inversion O.
  - destruct (Nat.eqb_spec i x) as [<-|]; [|apply O]. rewrite H1. intros E; injection E as <-.
    eapply act_uses; [exact A|]. now apply O.
  - destruct (Nat.eqb_spec j x) as [<-|]; destruct (Nat.eqb_spec i j) as [->|]; try congruence.
    + rewrite H2. intros E; injection E as <-. specialize (O _ _ H2). inversion O; auto.
    + destruct (Nat.eqb_spec i x) as [<-|]; [|apply O]. rewrite H1. intros E; injection E as <-.
      specialize (O _ _ H1). now inversion O.
Qed.

(** two goroutines at work on one channel: one reads, the other writes, and the order does not matter *)
Definition reading (p : proc) : bool := match p with Recv _ _ => true | _ => false end.
Lemma act_owner c p ch p' ch' i : act c p ch p' ch' -> us i p -> i = if reading p then rd c else wr c.
Proof. intros A U. destruct A; inversion U; subst; reflexivity. Qed.
Lemma act_det c (p : proc) ch p1 c1 p2 c2 : act c p ch p1 c1 -> act c p ch p2 c2 -> p1 = p2 /\ c1 = c2.
Proof. intros A B. destruct A; inversion B; subst; try congruence; split; congruence. Qed.
Lemma act_same_chan c d (p : proc) ch p1 c1 ch' p2 c2 : act c p ch p1 c1 -> act d p ch' p2 c2 -> c = d.
Proof. intros A B. destruct A; inversion B; congruence. Qed.
Lemma act_comm c (p q : proc) ch p1 c1 q1 c2 : act c p ch p1 c1 -> act c q ch q1 c2 -> reading p <> reading q ->
  exists c3, act c p c2 p1 c3 /\ act c q c1 q1 c3.
Proof.
  intros A B H. destruct A; inversion B; subst; cbn in H; try congruence;
    try match goal with Hb : buf ch = _ :: _, Hl : length (buf ch) < _ |- _ => rewrite Hb in Hl; cbn in Hl end.
  - (* push, pop *) eexists; split; [apply a_push; cbn; [assumption|lia]|].
    match goal with Hb : buf ch = ?v1 :: ?q |- _ => apply (a_pop c _ (mkChan (cap ch) (buf ch ++ [v]) false) (q := q ++ [v])); cbn; now rewrite Hb end.
  - (* pop, push *) eexists; split; [eapply a_pop; cbn; now rewrite H0|].
    cbn. match goal with Hc : closed ch = false |- _ => rewrite Hc end. apply a_push; cbn; [reflexivity|lia].
  - (* pop, close *) eexists; split; [apply a_pop; cbn; eassumption|]. cbn. apply a_close; cbn; assumption.
  - eexists; split; [eapply a_pop; eassumption|]. apply a_send_closed; cbn; assumption.
  - eexists; split; [eapply a_pop; eassumption|]. apply a_close_closed; cbn; assumption.
  - eexists; split; [apply a_eof; assumption|]. apply a_send_closed; cbn; assumption.
  - eexists; split; [apply a_eof; assumption|]. apply a_close_closed; cbn; assumption.
  - (* close, pop *) eexists; split; [apply a_close; cbn; assumption|]. cbn. match goal with Hb : buf ch = _ :: ?q |- _ => apply (a_pop c _ (mkChan (cap ch) (buf ch) true) (q := q)); exact Hb end.
  - eexists; split; [apply a_send_closed; cbn; assumption|]. eapply a_pop; eassumption.
  - eexists; split; [apply a_send_closed; cbn; assumption|]. apply a_eof; assumption.
  - eexists; split; [apply a_close_closed; cbn; assumption|]. eapply a_pop; eassumption.
  - eexists; split; [apply a_close_closed; cbn; assumption|]. apply a_eof; assumption.
Qed.

Lemma diamond s a b : owned rd wr s -> step s a -> step s b -> a = b \/ exists d, step a d /\ step b d.
Proof.
  intros O Sa Sb.
  assert (L : forall t u : cfg, t = u \/ (exists d, step t d /\ step u d) -> u = t \/ (exists d, step u d /\ step t d)).
  { intros t u [->|(d & H1 & H2)]; [now left|right; eauto]. }
  destruct Sa as [s i k Hi|s i c p ch p' ch' Hi Hc A|s i j c v k h ch Hi Hj Hc Hz Hb Ho].
  - (* tau *)
    inversion Sb as [s0 i0 k0 Hi0|s0 i0 c0 p0 ch0 p0' ch0' Hi0 Hc0 A0|s0 i0 j0 c0 v0 k0 h0 ch0 Hi0 Hj0 Hc0 Hz0 Hb0 Ho0]; subst.
    + destruct (Nat.eqb_spec i i0) as [<-|Hne]; [left; congruence|]. right. exists (set_proc (set_proc s i k) i0 k0). split.
      * apply s_tau. gs. destruct (Nat.eqb_spec i i0); congruence.
      * replace (set_proc (set_proc s i k) i0 k0) with (set_proc (set_proc s i0 k0) i k).
        { apply s_tau. gs. destruct (Nat.eqb_spec i0 i); congruence. }
        apply cfg_ext; [now rewrite !set_proc_length| |]; intros x; gs; [|reflexivity].
        destruct (Nat.eqb_spec i x), (Nat.eqb_spec i0 x); try congruence; reflexivity.
    + assert (Hne : i <> i0) by (intros <-; rewrite Hi in Hi0; injection Hi0 as <-; inversion A0).
      right. exists (set_chan (set_proc (set_proc s i k) i0 p0') c0 ch0'). split.
      * eapply s_act; gs; [|eassumption|eassumption]. destruct (Nat.eqb_spec i i0); congruence.
      * replace (set_chan (set_proc (set_proc s i k) i0 p0') c0 ch0') with (set_proc (set_chan (set_proc s i0 p0') c0 ch0') i k).
        { apply s_tau. gs. destruct (Nat.eqb_spec i0 i); congruence. }
        apply cfg_ext; [now rewrite ?set_proc_length, ?set_chan_length, ?set_proc_length| |]; intros x; gs; [|reflexivity].
        destruct (Nat.eqb_spec i x), (Nat.eqb_spec i0 x); try congruence; reflexivity.
    + assert (Hne : i <> i0) by congruence. assert (Hne' : i <> j0) by congruence.
      right. exists (set_proc (set_proc (set_proc s i k) i0 k0) j0 (h0 (Some v0))). split.
      * apply (@s_meet V _ i0 j0 c0 v0 k0 h0 ch0); gs; try assumption; [destruct (Nat.eqb_spec i i0)|destruct (Nat.eqb_spec i j0)]; congruence.
      * replace (set_proc (set_proc (set_proc s i k) i0 k0) j0 (h0 (Some v0))) with (set_proc (set_proc (set_proc s i0 k0) j0 (h0 (Some v0))) i k).
        { apply s_tau. gs. destruct (Nat.eqb_spec i0 i), (Nat.eqb_spec j0 i); congruence. }
        apply cfg_ext; [now rewrite ?set_proc_length| |]; intros x; gs; [|reflexivity].
        destruct (Nat.eqb_spec i x), (Nat.eqb_spec i0 x), (Nat.eqb_spec j0 x); try congruence; reflexivity.
  - (* act *)
    inversion Sb as [s0 i0 k0 Hi0|s0 i0 c0 p0 ch0 p0' ch0' Hi0 Hc0 A0|s0 i0 j0 c0 v0 k0 h0 ch0 Hi0 Hj0 Hc0 Hz0 Hb0 Ho0]; subst.
    + assert (Hne : i <> i0) by (intros <-; rewrite Hi in Hi0; injection Hi0 as ->; inversion A).
      right. exists (set_chan (set_proc (set_proc s i0 k0) i p') c ch'). split.
      * replace (set_chan (set_proc (set_proc s i0 k0) i p') c ch') with (set_proc (set_chan (set_proc s i p') c ch') i0 k0).
        { apply s_tau. gs. destruct (Nat.eqb_spec i i0); congruence. }
        apply cfg_ext; [now rewrite ?set_proc_length, ?set_chan_length, ?set_proc_length| |]; intros x; gs; [|reflexivity].
        destruct (Nat.eqb_spec i x), (Nat.eqb_spec i0 x); try congruence; reflexivity.
      * eapply s_act; gs; [|eassumption|eassumption]. destruct (Nat.eqb_spec i0 i); congruence.
    + destruct (Nat.eqb_spec i i0) as [<-|Hne].
      { left. rewrite Hi in Hi0. injection Hi0 as <-. pose proof (act_same_chan A A0) as <-. rewrite Hc in Hc0. injection Hc0 as <-.
        destruct (act_det A A0) as [<- <-]. reflexivity. }
      right. destruct (Nat.eqb_spec c c0) as [<-|Hnc].
      * rewrite Hc in Hc0. injection Hc0 as <-.
        pose proof (@act_owner _ _ _ _ _ i A (O _ _ Hi)) as W1. pose proof (@act_owner _ _ _ _ _ i0 A0 (O _ _ Hi0)) as W2.
        assert (Hr : reading p <> reading p0) by (intros E; rewrite E in W1; congruence).
        destruct (act_comm A A0 Hr) as (c3 & B1 & B2).
        exists (set_chan (set_proc (set_proc s i p') i0 p0') c c3). split.
        -- replace (set_chan (set_proc (set_proc s i p') i0 p0') c c3) with (set_chan (set_proc (set_chan (set_proc s i p') c ch') i0 p0') c c3).
           { eapply s_act; [| |exact B2]; gs; [destruct (Nat.eqb_spec i i0); congruence|]. rewrite Nat.eqb_refl, Hc. reflexivity. }
           apply cfg_ext; [now rewrite ?set_chan_length, ?set_proc_length, ?set_chan_length, ?set_proc_length| |]; intros x; gs; [reflexivity|].
           destruct (Nat.eqb_spec c x) as [<-|]; [|reflexivity]. now destruct (chan_at s c).
        -- replace (set_chan (set_proc (set_proc s i p') i0 p0') c c3) with (set_chan (set_proc (set_chan (set_proc s i0 p0') c ch0') i p') c c3).
           { eapply s_act; [| |exact B1]; gs; [destruct (Nat.eqb_spec i0 i); congruence|]. rewrite Nat.eqb_refl, Hc. reflexivity. }
           apply cfg_ext; [now rewrite ?set_chan_length, ?set_proc_length, ?set_chan_length, ?set_proc_length| |]; intros x; gs.
           ++ destruct (Nat.eqb_spec i x), (Nat.eqb_spec i0 x); try congruence; reflexivity.
           ++ destruct (Nat.eqb_spec c x) as [<-|]; [|reflexivity]. now destruct (chan_at s c).
      * exists (set_chan (set_chan (set_proc (set_proc s i p') i0 p0') c ch') c0 ch0'). split.
        -- replace (set_chan (set_chan (set_proc (set_proc s i p') i0 p0') c ch') c0 ch0') with (set_chan (set_proc (set_chan (set_proc s i p') c ch') i0 p0') c0 ch0').
           { eapply s_act; [| |exact A0]; gs; [destruct (Nat.eqb_spec i i0); congruence|]. destruct (Nat.eqb_spec c c0); congruence. }
           apply cfg_ext; [now rewrite ?set_chan_length, ?set_proc_length, ?set_chan_length, ?set_proc_length| |]; intros x; gs; reflexivity.
        -- replace (set_chan (set_chan (set_proc (set_proc s i p') i0 p0') c ch') c0 ch0') with (set_chan (set_proc (set_chan (set_proc s i0 p0') c0 ch0') i p') c ch').
           { eapply s_act; [| |exact A]; gs; [destruct (Nat.eqb_spec i0 i); congruence|]. destruct (Nat.eqb_spec c0 c); congruence. }
           apply cfg_ext; [now rewrite ?set_chan_length, ?set_proc_length, ?set_chan_length, ?set_proc_length| |]; intros x; gs.
           ++ destruct (Nat.eqb_spec i x), (Nat.eqb_spec i0 x); try congruence; reflexivity.
           ++ destruct (Nat.eqb_spec c x), (Nat.eqb_spec c0 x); try congruence; reflexivity.
    + assert (Hne : i <> i0).
      { intros <-. rewrite Hi in Hi0. injection Hi0 as ->. inversion A; subst; rewrite Hc in Hc0; injection Hc0 as <-; try congruence. lia. }
      assert (Hne' : i <> j0).
      { intros <-. rewrite Hi in Hj0. injection Hj0 as ->. inversion A; subst; rewrite Hc in Hc0; injection Hc0 as <-; congruence. }
      assert (Hnc : c <> c0).
      { intros <-. pose proof (@act_owner _ _ _ _ _ i A (O _ _ Hi)) as W1.
        pose proof (O _ _ Hi0) as W2. pose proof (O _ _ Hj0) as W3. inversion W2; inversion W3; subst. destruct (reading p); congruence. }
      right. exists (set_chan (set_proc (set_proc (set_proc s i p') i0 k0) j0 (h0 (Some v0))) c ch'). split.
      * replace (set_chan (set_proc (set_proc (set_proc s i p') i0 k0) j0 (h0 (Some v0))) c ch') with
          (set_proc (set_proc (set_chan (set_proc s i p') c ch') i0 k0) j0 (h0 (Some v0))).
        { apply (@s_meet V _ i0 j0 c0 v0 k0 h0 ch0); gs; try assumption; [destruct (Nat.eqb_spec i i0)|destruct (Nat.eqb_spec i j0)|destruct (Nat.eqb_spec c c0)]; congruence. }
        apply cfg_ext; [now rewrite ?set_chan_length, ?set_proc_length, ?set_chan_length, ?set_proc_length| |]; intros x; gs; reflexivity.
      * replace (set_chan (set_proc (set_proc (set_proc s i p') i0 k0) j0 (h0 (Some v0))) c ch') with
          (set_chan (set_proc (set_proc (set_proc s i0 k0) j0 (h0 (Some v0))) i p') c ch').
        { eapply s_act; [| |exact A]; gs; [|assumption]. destruct (Nat.eqb_spec i0 i), (Nat.eqb_spec j0 i); congruence. }
        apply cfg_ext; [now rewrite ?set_chan_length, ?set_proc_length| |]; intros x; gs; [|reflexivity].
        destruct (Nat.eqb_spec i x), (Nat.eqb_spec i0 x), (Nat.eqb_spec j0 x); try congruence; reflexivity.
  - (* meet *)
    inversion Sb as [s0 i0 k0 Hi0|s0 i0 c0 p0 ch0 p0' ch0' Hi0 Hc0 A0|s0 i0 j0 c0 v0 k0 h0 ch0 Hi0 Hj0 Hc0 Hz0 Hb0 Ho0]; subst.
    + assert (Hne : i <> i0) by congruence. assert (Hne' : j <> i0) by congruence.
      right. exists (set_proc (set_proc (set_proc s i0 k0) i k) j (h (Some v))). split.
      * replace (set_proc (set_proc (set_proc s i0 k0) i k) j (h (Some v))) with (set_proc (set_proc (set_proc s i k) j (h (Some v))) i0 k0).
        { apply s_tau. gs. destruct (Nat.eqb_spec i i0), (Nat.eqb_spec j i0); congruence. }
        apply cfg_ext; [now rewrite ?set_proc_length| |]; intros x; gs; [|reflexivity].
        destruct (Nat.eqb_spec i x), (Nat.eqb_spec i0 x), (Nat.eqb_spec j x); try congruence; reflexivity.
      * apply (@s_meet V _ i j c v k h ch); gs; try assumption; [destruct (Nat.eqb_spec i0 i)|destruct (Nat.eqb_spec i0 j)]; congruence.
    + assert (Hne : i0 <> i).
      { intros <-. rewrite Hi in Hi0. injection Hi0 as <-. inversion A0; subst; rewrite Hc in Hc0; injection Hc0 as <-; try congruence. lia. }
      assert (Hne' : i0 <> j).
      { intros <-. rewrite Hj in Hi0. injection Hi0 as <-. inversion A0; subst; rewrite Hc in Hc0; injection Hc0 as <-; congruence. }
      assert (Hnc : c0 <> c).
      { intros <-. pose proof (@act_owner _ _ _ _ _ i0 A0 (O _ _ Hi0)) as W1.
        pose proof (O _ _ Hi) as W2. pose proof (O _ _ Hj) as W3. inversion W2; inversion W3; subst. destruct (reading p0); congruence. }
      right. exists (set_chan (set_proc (set_proc (set_proc s i0 p0') i k) j (h (Some v))) c0 ch0'). split.
      * replace (set_chan (set_proc (set_proc (set_proc s i0 p0') i k) j (h (Some v))) c0 ch0') with
          (set_chan (set_proc (set_proc (set_proc s i k) j (h (Some v))) i0 p0') c0 ch0').
        { eapply s_act; [| |exact A0]; gs; [|assumption]. destruct (Nat.eqb_spec i i0), (Nat.eqb_spec j i0); congruence. }
        apply cfg_ext; [now rewrite ?set_chan_length, ?set_proc_length| |]; intros x; gs; [|reflexivity].
        destruct (Nat.eqb_spec i x), (Nat.eqb_spec i0 x), (Nat.eqb_spec j x); try congruence; reflexivity.
      * replace (set_chan (set_proc (set_proc (set_proc s i0 p0') i k) j (h (Some v))) c0 ch0') with
          (set_proc (set_proc (set_chan (set_proc s i0 p0') c0 ch0') i k) j (h (Some v))).
        { apply (@s_meet V _ i j c v k h ch); gs; try assumption; [destruct (Nat.eqb_spec i0 i)|destruct (Nat.eqb_spec i0 j)|destruct (Nat.eqb_spec c0 c)]; congruence. }
        apply cfg_ext; [now rewrite ?set_chan_length, ?set_proc_length, ?set_chan_length, ?set_proc_length| |]; intros x; gs; reflexivity.
    + destruct (Nat.eqb_spec c c0) as [<-|Hnc].
      { left. pose proof (O _ _ Hi) as W1. pose proof (O _ _ Hi0) as W2. pose proof (O _ _ Hj) as W3. pose proof (O _ _ Hj0) as W4.
        inversion W1; inversion W2; inversion W3; inversion W4; subst.
        rewrite Hi in Hi0. rewrite Hj in Hj0. injection Hi0 as <- <-. injection Hj0 as <-. reflexivity. }
      assert (i <> i0) by congruence. assert (j <> j0) by congruence. assert (i <> j0) by congruence. assert (j <> i0) by congruence.
      right. exists (set_proc (set_proc (set_proc (set_proc s i k) j (h (Some v))) i0 k0) j0 (h0 (Some v0))). split.
      * apply (@s_meet V _ i0 j0 c0 v0 k0 h0 ch0); gs; try assumption; [destruct (Nat.eqb_spec i i0), (Nat.eqb_spec j i0)|destruct (Nat.eqb_spec i j0), (Nat.eqb_spec j j0)]; congruence.
      * replace (set_proc (set_proc (set_proc (set_proc s i k) j (h (Some v))) i0 k0) j0 (h0 (Some v0))) with
          (set_proc (set_proc (set_proc (set_proc s i0 k0) j0 (h0 (Some v0))) i k) j (h (Some v))).
        { apply (@s_meet V _ i j c v k h ch); gs; try assumption; [destruct (Nat.eqb_spec i0 i), (Nat.eqb_spec j0 i)|destruct (Nat.eqb_spec i0 j), (Nat.eqb_spec j0 j)]; congruence. }
        apply cfg_ext; [now rewrite ?set_proc_length| |]; intros x; gs; [|reflexivity].
        destruct (Nat.eqb_spec i x), (Nat.eqb_spec i0 x), (Nat.eqb_spec j x), (Nat.eqb_spec j0 x); try congruence; reflexivity.
Qed.

Lemma owned_steps n s t : owned rd wr s -> steps n s t -> owned rd wr t.
Proof. intros O H. induction H; [exact O|]. apply IHsteps. eapply owned_step; eassumption. Qed.

(** one step commutes past a run to a final state *)
Lemma strip N s z a : owned rd wr s -> steps N s z -> stuck z -> step s a -> exists n, N = S n /\ steps n a z.
Proof.
  intros O H. revert a O. induction H as [s|n s s1 z H1 H IH]; intros a O Hz Ha.
  - destruct (Hz _ Ha).
  - exists n. split; [reflexivity|]. destruct (diamond O Ha H1) as [->|(d & D1 & D2)]; [exact H|].
    destruct (IH d) as (m & -> & Hm); [eapply owned_step; eassumption|exact Hz|exact D2|]. econstructor; eassumption.
Qed.

(** if one schedule ends, all end, after the same number of steps, in the same state *)
Theorem scheduler_irrelevant N s z : owned rd wr s -> steps N s z -> stuck z ->
  forall n c, steps n s c -> exists k, n + k = N /\ steps k c z.
Proof.
  intros O H Hz n c Hc. revert N O H. induction Hc as [s|n s s1 c H1 Hc IH]; intros N O H.
  - exists N. split; [reflexivity|exact H].
  - destruct (strip O H Hz H1) as (m & -> & Hm). destruct (IH m) as (k & <- & Hk); [eapply owned_step; eassumption|exact Hm|].
    exists k. split; [lia|exact Hk].
Qed.
End Own.
End Conf.
