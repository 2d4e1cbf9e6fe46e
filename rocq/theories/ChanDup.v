(** * ChanDup: Duplicate with concurrent readers, and with one reader after the other. *)
From Verif Require Import Base Chan SpecChan ChanConf ChanRun ChanNet ChanCheck.
Set Implicit Arguments.
Open Scope nat_scope.

Section Dup.
Variable V : Type.
Notation proc := (proc V). Notation cfg := (cfg V). Notation node := (node V). Notation chan := (chan V).
Ltac ll := unfold Chan.cfg, Chan.node in *; lia.

(** entries of Duplicate's channels; the first one carries the goroutine *)
Definition D (chs : list chan) (pd : proc) : cfg :=
  match chs with [] => [] | ch :: r => (ch, pd) :: map (fun ch => (ch, Done (@Quiet V))) r end.
Definition Rd (f : nat -> proc) (b m : nat) : cfg := map (fun c => (mk V 0, f c)) (seq b m).
Lemma D_length chs pd : length (D chs pd) = length chs.
Proof. destruct chs; cbn; [reflexivity|]. now rewrite map_length. Qed.
Lemma D_chan A ch B pd : chan_at (D (A ++ ch :: B) pd) (length A) = Some ch.
Proof.
  destruct A as [|c A]; [reflexivity|]. cbn. unfold chan_at. cbn. rewrite nth_error_map, nth_error_app2 by lia. now rewrite Nat.sub_diag.
Qed.
Lemma D_set A ch B pd ch' : set_chan (D (A ++ ch :: B) pd) (length A) ch' = D (A ++ ch' :: B) pd.
Proof.
  destruct A as [|c A]; [reflexivity|]. unfold set_chan. cbn. f_equal. rewrite !map_app.
  replace (length A) with (length (map (fun ch0 : chan => (ch0, Done (@Quiet V))) A) + 0) by (rewrite map_length; lia).
  rewrite (@at_app_r V). reflexivity.
Qed.
Lemma D_chan' A ch B pd j : length A = j -> chan_at (D (A ++ ch :: B) pd) j = Some ch. Proof. intros <-. apply D_chan. Qed.
Lemma D_set' A ch B pd ch' j : length A = j -> set_chan (D (A ++ ch :: B) pd) j ch' = D (A ++ ch' :: B) pd. Proof. intros <-. apply D_set. Qed.
Lemma D_set_proc c A pd pd' : set_proc (D (c :: A) pd) 0 pd' = D (c :: A) pd'. Proof. reflexivity. Qed.
Lemma Rd_length f b m : length (Rd f b m) = m. Proof. unfold Rd. now rewrite map_length, seq_length. Qed.
Lemma set_proc_l (s t : cfg) i p : i < length s -> set_proc (s ++ t) i p = set_proc s i p ++ t.
Proof. intros H. unfold set_proc. now apply at_app_l. Qed.
Lemma set_chan_l (s t : cfg) i p : i < length s -> set_chan (s ++ t) i p = set_chan s i p ++ t.
Proof. intros H. unfold set_chan. now apply at_app_l. Qed.
Lemma D_cons_proc c A pd (T : cfg) : proc_at (D (c :: A) pd ++ T) 0 = Some pd. Proof. reflexivity. Qed.

Lemma set_proc_app' (s T : cfg) i j p : i = length s + j -> set_proc (s ++ T) i p = s ++ set_proc T j p.
Proof. intros ->. apply set_proc_app. Qed.
Lemma proc_app' (s T : cfg) i j : i = length s + j -> proc_at (s ++ T) i = proc_at T j.
Proof. intros ->. apply proc_app_r. Qed.

Variables (d n m : nat).
Let os := seq d (S m).
Let chs := repeat (mk V n) (S m).
Notation col := (fun acc c => collectP (V := V) acc c).

(** the value [x] goes to the outputs that are left *)
Lemma dup_send i x acc : forall k j, j + k = S m ->
  fsteps d (D chs (dupSend i os (seq (d + j) k) (Some x)) ++ Rd (col (acc ++ [x])) d j ++ Rd (col acc) (d + j) k)
           (D chs (dupP V i os) ++ Rd (col (acc ++ [x])) d (S m)).
Proof.
  induction k as [|k IH]; intros j Hj.
  - cbn [seq]. replace j with (S m) by lia. unfold dupP, Rd at 2. cbn [seq map]. rewrite app_nil_r.
    rewrite (frob_eq (dupSend i os [] (Some x))), (frob_eq (dupSend i os [] None)). cbn [frob dupSend]. apply fs_refl.
  - cbn [seq]. rewrite (frob_eq (dupSend i os (d + j :: _) (Some x))). cbn [frob dupSend].
    specialize (IH (S j)). eapply fs_trans; [|apply IH; lia]. clear IH.
    assert (EC : chs = repeat (mk V n) j ++ mk V n :: repeat (mk V n) (m - j)).
    { unfold chs. change (mk V n :: repeat (mk V n) (m - j)) with (repeat (mk V n) (S (m - j))). rewrite <- repeat_app. f_equal. lia. }
    assert (EA : forall a (p : proc), Rd (col a) d j ++ (mk V 0, p) :: Rd (col acc) (S (d + j)) k =
       (Rd (col a) d j) ++ [(mk V 0, p)] ++ Rd (col acc) (S (d + j)) k) by reflexivity.
    assert (E1 : Rd (col acc) (d + j) (S k) = (mk V 0, collectP acc (d + j)) :: Rd (col acc) (S (d + j)) k) by reflexivity.
    assert (E2 : Rd (col (acc ++ [x])) d (S j) = Rd (col (acc ++ [x])) d j ++ [(mk V 0, collectP (acc ++ [x]) (d + j))]).
    { unfold Rd. rewrite seq_S, map_app. reflexivity. }
    rewrite E1, E2, <- app_assoc. replace (d + S j) with (S (d + j)) by lia.
    set (P1 := dupSend i os (seq (S (d + j)) k) (Some x)).
    eapply (@go_pass V d _ _ 0 (length chs + (j + 0)) j).
    + unfold chs. cbn [repeat]. reflexivity.
    + replace (length chs) with (length (D chs (Send (d + j) x P1))) by (apply D_length). rewrite proc_app_r.
      rewrite (@proc_app' _ _ _ 0) by (rewrite Rd_length; reflexivity).
      rewrite (frob_eq (collectP acc (d + j))). cbn [frob collectP]. reflexivity.
    + apply chan_app_l. rewrite EC. apply D_chan', repeat_length.
    + rewrite set_proc_l by (unfold chs; cbn; lia). unfold chs at 1. cbn [repeat]. rewrite D_set_proc.
      change (mk V n :: repeat (mk V n) m) with chs.
      replace (length chs) with (length (D chs P1)) by (apply D_length). rewrite set_proc_app. f_equal.
      rewrite (@set_proc_app' _ _ _ 0) by (rewrite Rd_length; reflexivity). reflexivity.
Qed.
Lemma close_all k : forall j, j + k = S m ->
  fsteps d (D (repeat (mk V n) k ++ repeat (mkChan n [] true) j) (closeAll V (rev (seq d k))))
           (D (repeat (mkChan n [] true) (S m)) (Done (@Quiet V))).
Proof.
  induction k as [|k IH]; intros j Hj.
  - replace j with (S m) by lia. apply fs_refl.
  - rewrite seq_S, rev_app_distr. cbn [rev app closeAll].
    eapply fs_trans; [|apply (IH (S j)); lia].
    assert (ER : repeat (mk V n) (S k) ++ repeat (mkChan n [] true) j = repeat (mk V n) k ++ mk V n :: repeat (mkChan n [] true) j).
    { change (mk V n :: repeat (mkChan n [] true) j) with ([mk V n] ++ repeat (mkChan n [] true) j). rewrite app_assoc. f_equal.
      change [mk V n] with (repeat (mk V n) 1). rewrite <- repeat_app. f_equal. lia. }
    rewrite ER. eapply (@go_act V d _ _ 0 k).
    + destruct k; reflexivity.
    + apply D_chan', repeat_length.
    + apply a_close; reflexivity.
    + cbn [cap buf mk].
      match goal with |- set_chan (set_proc (D ?X ?p) 0 ?q) _ _ = _ => replace (set_proc (D X p) 0 q) with (D X q) by (destruct k; reflexivity) end.
      rewrite D_set' by apply repeat_length. reflexivity.
Qed.
Let done := repeat (mkChan (V := V) n [] true) (S m).
Lemma all_eof l : forall k j, j + k = S m ->
  fsteps d (D done (Done (@Quiet V)) ++ Rd (fun _ => Done (Slice l)) d j ++ Rd (col l) (d + j) k)
           (D done (Done (@Quiet V)) ++ Rd (fun _ => Done (Slice l)) d (S m)).
Proof.
  induction k as [|k IH]; intros j Hj.
  - replace j with (S m) by lia. unfold Rd at 2. cbn [seq map]. rewrite app_nil_r. apply fs_refl.
  - eapply fs_trans; [|apply (IH (S j)); lia].
    assert (E1 : Rd (col l) (d + j) (S k) = (mk V 0, collectP l (d + j)) :: Rd (col l) (S (d + j)) k) by reflexivity.
    assert (E2 : Rd (fun _ => Done (Slice l)) d (S j) = Rd (fun _ => Done (Slice l)) d j ++ [(mk V 0, Done (Slice l))]).
    { unfold Rd. rewrite seq_S, map_app. reflexivity. }
    rewrite E1, E2, <- app_assoc. replace (d + S j) with (S (d + j)) by lia.
    assert (EC : done = repeat (mkChan n [] true) j ++ mkChan n [] true :: repeat (mkChan n [] true) (m - j)).
    { unfold done. change (mkChan (V := V) n [] true :: repeat (mkChan n [] true) (m - j)) with (repeat (mkChan (V := V) n [] true) (S (m - j))).
      rewrite <- repeat_app. f_equal. lia. }
    assert (LD : length (D done (Done (@Quiet V))) = S m) by (rewrite D_length; apply repeat_length).
    eapply (@go_act V d _ _ (S m + (j + 0)) j).
    + rewrite <- LD, proc_app_r. rewrite (@proc_app' _ _ _ 0) by (rewrite Rd_length; reflexivity).
      rewrite (frob_eq (collectP l (d + j))). cbn [frob collectP]. reflexivity.
    + apply chan_app_l. rewrite EC. apply D_chan', repeat_length.
    + apply a_eof; reflexivity.
    + rewrite <- LD at 1. rewrite set_proc_app. rewrite set_chan_l by ll. f_equal.
      * rewrite EC. now rewrite D_set' by apply repeat_length.
      * rewrite (@set_proc_app' _ _ _ 0) by (rewrite Rd_length; reflexivity). reflexivity.
Qed.

Lemma run_dup b o l : forall s acc, offers b o s l -> d = b + length s -> d - 1 = b + o ->
  exists t, ended o t /\ length t = length s /\
  fsteps b (s ++ D chs (dupP V (d - 1) os) ++ Rd (col acc) d (S m))
           (t ++ D done (Done (@Quiet V)) ++ Rd (fun _ => Done (Slice (acc ++ l))) d (S m)).
Proof.
  induction l as [|x l IH]; intros s acc O Hd Ho; inversion O as [s0 t H1 L1 E|s0 t x0 l0 H1 L1 O1]; subst s0; rewrite <- Ho in H1.
  - exists t. split; [exact E|]. split; [exact L1|]. rewrite app_nil_r.
    eapply fs_trans; [eapply (H1 _ 0); unfold chs, dupP; cbn [repeat]; rewrite (frob_eq (dupSend _ _ _ _)); cbn [frob dupSend]; reflexivity|].
    apply fs_frame. rewrite L1, <- Hd.
    eapply fs_trans.
    + apply fs_eq with (t := D done (Done (@Quiet V)) ++ Rd (col acc) d (S m)); [|reflexivity].
      refine (@fs_frame_r V d (D chs (closeAll V (rev os))) (D done (Done (@Quiet V))) (Rd (col acc) d (S m)) _). pose proof (@close_all (S m) 0 (Nat.add_0_l _)) as C. cbn [repeat] in C. rewrite ?app_nil_r in C. exact C.
    + pose proof (@all_eof acc (S m) 0 (Nat.add_0_l _)) as C. rewrite Nat.add_0_r in C. exact C.
  - subst x0 l0. destruct (IH t (acc ++ [x]) O1) as (t' & E' & L' & R); [ll|exact Ho|]. exists t'. split; [exact E'|]. split; [ll|].
    rewrite <- app_assoc in R. eapply fs_trans; [|exact R].
    eapply fs_trans; [eapply (H1 _ 0); unfold chs, dupP; cbn [repeat]; rewrite (frob_eq (dupSend _ _ _ _)); cbn [frob dupSend]; reflexivity|].
    apply fs_frame. rewrite L1, <- Hd.
    pose proof (@dup_send (d - 1) x acc (S m) 0 (Nat.add_0_l _)) as C. rewrite Nat.add_0_r in C.
    cbn [seq] in C. rewrite (frob_eq (dupSend (d - 1) os (d :: _) (Some x))) in C. cbn [frob dupSend] in C. exact C.
Qed.
End Dup.

Section Ends.
Variable V : Type.
Notation proc := (proc V). Notation cfg := (cfg V). Notation node := (node V). Notation chan := (chan V).
Ltac ll := unfold Chan.cfg, Chan.node in *; lia.
Lemma D_repeat (ch : chan) m (p : proc) : D (repeat ch (S m)) p = (ch, p) :: repeat (ch, Done (@Quiet V)) m.
Proof. cbn. f_equal. induction m as [|m IH]; cbn; [reflexivity|]. now rewrite IH. Qed.
Lemma readers_Rd m : forall b, readers V b m = Rd (fun c => collectP [] c) b m.
Proof. induction m as [|m IH]; intros b; cbn; [reflexivity|]. now rewrite IH. Qed.
Lemma Rd_nth (f : nat -> proc) b m i p : proc_at (Rd f b m) i = Some p -> i < m /\ p = f (b + i).
Proof.
  unfold proc_at, Rd. rewrite nth_error_map. destruct (nth_error (seq b m) i) as [c|] eqn:E; [|discriminate]. cbn. intros H. injection H as <-.
  assert (L : i < m) by (rewrite <- (seq_length m b); apply nth_error_Some; congruence). split; [exact L|].
  rewrite (nth_error_nth' _ 0) in E by (now rewrite seq_length). injection E as <-. now rewrite seq_nth.
Qed.

Theorem dup_all_ends p m : buildable p -> exists N gs rs,
  always_ends (dup_all (V := V) p (S m)) N (gs ++ rs) /\
  Forall (fun g => snd g = Done (@Quiet V)) gs /\ length rs = S m /\ Forall (fun g => snd g = Done (Slice (meaning p))) rs.
Proof.
  intros B. pose proof (@run_build V p 0 B) as O. pose proof (psize_pos p) as Pp. pose proof (build_length 0 p) as BL.
  destruct (@run_dup V (psize p) (Z.to_nat (pcap p)) m 0 (psize p - 1) (meaning p) (build 0 p) [] O) as (t & E & L & R); [lia|lia|].
  destruct (R [] [] eq_refl) as (N & HN). cbn [app] in HN. rewrite !app_nil_r in HN.
  set (dn := D (repeat (mkChan (Z.to_nat (pcap p)) [] true) (S m)) (Done (@Quiet V))) in HN.
  exists N, (t ++ dn), (Rd (fun _ => Done (Slice (meaning p))) (psize p) (S m)).
  assert (F1 : Forall (fun g => snd g = Done (@Quiet V)) (t ++ dn)).
  { apply Forall_app. split; [apply (ended_done E)|]. unfold dn. rewrite D_repeat. constructor; [reflexivity|].
    apply Forall_forall. intros x Hx. apply repeat_spec in Hx. now subst x. }
  assert (F2 : Forall (fun g => snd g = Done (Slice (meaning p))) (Rd (fun _ => Done (Slice (meaning p))) (psize p) (S m))).
  { unfold Rd. apply Forall_forall. intros x Hx. apply in_map_iff in Hx. destruct Hx as (c & <- & _). reflexivity. }
  split; [|split; [exact F1|split; [apply Rd_length|exact F2]]].
  destruct (fence_build p 0) as (rd & wr & F). set (d := psize p) in *.
  eapply ends_of with (rd := fun c => if Nat.ltb c (d - 1) then rd c else if Nat.eqb c (d - 1) then d else c + S m)
    (wr := fun c => if Nat.ltb c d then wr c else d) (N := N).
  - intros i q Hq. unfold dup_all in Hq. fold d in Hq. cbn [Nat.sub] in Hq. rewrite Nat.sub_0_r, readers_Rd in Hq.
    change (?a :: ?x ++ ?y) with ((a :: x) ++ y) in Hq. rewrite <- D_repeat in Hq.
    destruct (proc_app_cases _ _ _ Hq) as [H|[L2 H]]; [|destruct (proc_app_cases _ _ _ H) as [H'|[L3 H']]].
    + eapply uses_mono; [| |exact (F _ _ H)]; cbv beta; intros c [H1 H2].
      * destruct (Nat.ltb_spec c (d - 1)); lia.
      * destruct (Nat.ltb_spec c d); lia.
    + rewrite BL in *. rewrite D_repeat in H'. destruct (i - d) as [|j] eqn:Ei.
      * injection H' as <-. apply uses_dup; [|apply Forall_forall; intros c Hc; change (In c (seq d (S m))) in Hc; apply in_seq in Hc|constructor].
        -- destruct (Nat.ltb_spec (d - 1) (d - 1)); [lia|]. rewrite Nat.eqb_refl. lia.
        -- destruct (Nat.ltb_spec c d); lia.
      * unfold proc_at in H'. cbn in H'. destruct (nth_error _ j) as [g|] eqn:En; [|discriminate]. injection H' as <-.
        apply nth_error_In, repeat_spec in En. subst g. constructor.
    + rewrite D_length, repeat_length, BL in *. apply Rd_nth in H'. destruct H' as [L4 ->]. apply uses_collect.
      destruct (Nat.ltb_spec (d + (i - d - S m)) (d - 1)); [lia|]. destruct (Nat.eqb_spec (d + (i - d - S m)) (d - 1)); lia.
  - unfold dup_all. fold d. cbn [Nat.sub]. rewrite Nat.sub_0_r, readers_Rd. change (?a :: ?x ++ ?y) with ((a :: x) ++ y).
    rewrite <- D_repeat, <- app_assoc. exact HN.
  - apply stuck_done. apply Forall_app. split.
    + eapply Forall_impl; [|exact F1]. cbn. intros g ->. eauto.
    + eapply Forall_impl; [|exact F2]. cbn. intros g ->. eauto.
Qed.

(** one reader for both copies, the first copy to the end first *)
Theorem dup_seq_ends x (xs : list V) : exists N z, always_ends (dup_seq (x :: xs)) N z /\
  proc_at z 3 = Some (collectThen 1 (collectP [] 2)).
Proof.
  set (g0 := match xs with [] => (mkChan 0 [] true, Done (@Quiet V)) | _ => (mk V 0, sourceP xs 0) end).
  set (z := [g0; (mk V 0, Send 2 x (dupP V 0 [1; 2])); (mk V 0, Done (@Quiet V)); (mk V 0, collectThen 1 (collectP [] 2))]).
  assert (R : fsteps 0 (dup_seq (x :: xs)) z).
  { unfold dup_seq, dupP. rewrite (frob_eq (dupSend _ _ _ _)). cbn [frob dupSend].
    eapply fs_trans; [eapply (@go_pass V 0 _ _ 0 1 0); reflexivity|]. cbn.
    eapply fs_trans; [eapply (@go_pass V 0 _ _ 1 3 1); [reflexivity|cbn; f_equal; rewrite (frob_eq (collectThen _ _)); cbn [frob collectThen]; reflexivity|reflexivity|reflexivity]|]. cbn.
    rewrite (frob_eq (dupSend 0 [1; 2] [2] (Some x))). cbn [frob dupSend].
    rewrite (frob_eq (dupSend 0 [1; 2] [] (Some x))). cbn [frob dupSend].
    unfold z, dupP. rewrite (frob_eq (dupSend 0 [1; 2] [] None)). cbn [frob dupSend]. unfold g0. destruct xs as [|y ys]; [|apply fs_refl].
    eapply (@go_act V 0 _ _ 0 0); [reflexivity|reflexivity|apply a_close; reflexivity|reflexivity]. }
  destruct (R [] [] eq_refl) as (N & HN). cbn [app] in HN. rewrite app_nil_r in HN.
  exists N, z. split; [|reflexivity].
  assert (U : owned (fun c => match c with O => 1 | _ => 3 end) (fun c => match c with O => 0 | _ => 1 end) (dup_seq (x :: xs))).
  { intros [|[|[|[|i]]]] q H; [..|destruct i; discriminate]; injection H as <-.
    - now apply (@uses_source V _ _ 0 (x :: xs)).
    - apply uses_dup; repeat constructor.
    - constructor.
    - cofix CH. rewrite (frob_eq (collectThen _ _)). cbn. constructor; [reflexivity|].
      intros [v|]; [exact CH|]. now apply uses_collect. }
  eapply ends_of; [exact U|exact HN|]. clear R HN U.
  assert (P : forall i q, proc_at z i = Some q -> (i = 0 /\ exists v k, q = Send 0 v k) \/ (i = 1 /\ exists v k, q = Send 2 v k) \/
     (exists r, q = Done r) \/ (i = 3 /\ exists k, q = Recv 1 k)).
  { intros [|[|[|[|i]]]] q H; [..|destruct i; discriminate]; injection H as <-.
    - unfold g0. destruct xs as [|y ys]; cbn; [right; right; left; eauto|left; eauto].
    - right. left. eauto.
    - right. right. left. eauto.
    - right. right. right. split; [reflexivity|]. rewrite (frob_eq (collectThen _ _)). cbn. eauto. }
  assert (C : forall i ch, chan_at z i = Some ch -> buf ch = [] /\ cap ch = 0 /\ (closed ch = true -> i = 0 /\ proc_at z 0 = Some (Done (@Quiet V)))).
  { intros [|[|[|[|i]]]] ch H; [..|destruct i; discriminate]; injection H as <-; try (repeat split; cbn; discriminate).
    unfold z, g0. destruct xs as [|y ys]; repeat split; cbn; discriminate. }
  intros s' St. remember z as s eqn:Es.
  destruct St as [s i k Hk|s i c p ch p' ch' H1 H2 A|s i j c v k h ch H1 H2 H3 H4 H5 H6].
  - destruct (P _ _ Hk) as [(_ & v & k' & E)|[(_ & v & k' & E)|[(r & E)|(_ & k' & E)]]]; discriminate.
  - destruct (C _ _ H2) as (B0 & C0 & CL). inversion A; subst p.
    + rewrite B0, C0 in *. cbn in *. lia.
    + congruence.
    + subst. destruct (CL H0) as [-> _]. destruct (P _ _ H1) as [(_ & v & k' & E)|[(_ & v & k' & E)|[(r & E)|(_ & k' & E)]]]; discriminate.
    + subst. destruct (P _ _ H1) as [(_ & v & k' & E)|[(_ & v & k' & E)|[(r & E)|(_ & k' & E)]]]; discriminate.
    + subst. destruct (CL H) as [-> Hd]. destruct (P _ _ H1) as [(-> & v0 & k' & E)|[(_ & v0 & k' & E)|[(r & E)|(_ & k' & E)]]]; congruence.
    + subst. destruct (P _ _ H1) as [(_ & v & k' & E)|[(_ & v & k' & E)|[(r & E)|(_ & k' & E)]]]; discriminate.
  - destruct (P _ _ H2) as [(_ & v' & k' & E)|[(_ & v' & k' & E)|[(r & E)|(_ & k' & E)]]]; try discriminate. injection E as -> ->.
    destruct (P _ _ H1) as [(_ & v' & k2 & E)|[(_ & v' & k2 & E)|[(r & E)|(_ & k2 & E)]]]; discriminate.
Qed.
End Ends.
