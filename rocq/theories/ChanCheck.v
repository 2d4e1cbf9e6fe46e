(** * ChanCheck: CheckEquals on finite channels. *)
From Verif Require Import Base Chan SpecChan ChanConf ChanRun ChanNet.
Set Implicit Arguments.
Open Scope nat_scope.

Section Check.
Variable V : Type.
Notation proc := (proc V). Notation cfg := (cfg V). Notation node := (node V). Notation chan := (chan V).
Ltac ll := unfold Chan.cfg, Chan.node in *; lia.

(** ** the caller, last in the program, receives from entry [length A] *)
Lemma mid_last (A B : cfg) x y : A ++ x :: B ++ [y] = (A ++ x :: B) ++ [y].
Proof. now rewrite <- app_assoc. Qed.
Lemma proc_mid (A B : cfg) x : proc_at (A ++ x :: B) (length A) = Some (snd x).
Proof. rewrite <- (Nat.add_0_r (length A)), proc_app_r. reflexivity. Qed.
Lemma chan_mid (A B : cfg) x : chan_at (A ++ x :: B) (length A) = Some (fst x).
Proof. rewrite <- (Nat.add_0_r (length A)), chan_app_r. reflexivity. Qed.
Lemma set_proc_last (A : cfg) m k k' : set_proc (A ++ [(m, k)]) (length A) k' = A ++ [(m, k')].
Proof. now rewrite set_proc_app0. Qed.
Lemma pass_mid (A B : cfg) n u (k : proc) h m :
  fsteps 0 (A ++ (mk V n, Send (length A) u k) :: B ++ [(m, Recv (length A) h)]) (A ++ (mk V n, k) :: B ++ [(m, h (Some u))]).
Proof.
  eapply (@go_pass V 0 _ _ (length A) (length (A ++ (mk V n, k) :: B)) (length A)); cbn [Nat.add].
  - rewrite proc_mid; reflexivity.
  - rewrite mid_last. replace (length (A ++ (mk V n, k) :: B)) with (length (A ++ (mk V n, Send (length A) u k) :: B)) by now rewrite !app_length.
    rewrite proc_last; reflexivity.
  - rewrite chan_mid; reflexivity.
  - rewrite set_proc_app0. unfold set_proc at 2. cbn [at_ fst]. rewrite mid_last, set_proc_last. now rewrite mid_last.
Qed.
Lemma eof_mid (A B : cfg) n (p : proc) h m :
  fsteps 0 (A ++ (mkChan n [] true, p) :: B ++ [(m, Recv (length A) h)]) (A ++ (mkChan n [] true, p) :: B ++ [(m, h None)]).
Proof.
  eapply (@go_act V 0 _ _ (length (A ++ (mkChan n [] true, p) :: B)) (length A)); cbn [Nat.add].
  - rewrite mid_last, proc_last; reflexivity.
  - rewrite chan_mid; reflexivity.
  - apply a_eof; reflexivity.
  - rewrite mid_last, set_proc_last, <- app_assoc. rewrite set_chan_app0. reflexivity.
Qed.
Lemma close_mid (A B : cfg) n h m :
  fsteps 0 (A ++ (mk V n, Close (length A) (Done (@Quiet V))) :: B ++ [(m, Recv (length A) h)])
           (A ++ (mkChan n [] true, Done (@Quiet V)) :: B ++ [(m, h None)]).
Proof.
  eapply fs_trans; [|apply eof_mid].
  eapply (@go_act V 0 _ _ (length A) (length A)); cbn [Nat.add].
  - rewrite proc_mid; reflexivity.
  - rewrite chan_mid; reflexivity.
  - apply a_close; reflexivity.
  - rewrite set_proc_app0, set_chan_app0. reflexivity.
Qed.
Lemma tau_last (A : cfg) m (k : proc) : fsteps 0 (A ++ [(m, Tau k)]) (A ++ [(m, k)]).
Proof.
  eapply fs_eq; [apply (@fs_tau V 0 _ (length A) k); apply proc_last|]. apply set_proc_last.
Qed.

(** ** goroutines whose reader has gone *)
Definition lazy (i : nat) (g : node) : Prop :=
  (exists n q xs, length q <= n /\ g = (mkChan n q false, sourceP xs i)) \/ snd g = Done (@Quiet V).
Definition idle (i : nat) (g : node) : Prop :=
  snd g = Done (@Quiet V) \/ (closed (fst g) = false /\ cap (fst g) <= length (buf (fst g)) /\ exists v k, snd g = Send i v k).
Lemma settle_one i n xs : forall q, length q <= n -> exists g, fsteps i [(mkChan n q false, sourceP xs i)] [g] /\ idle i g.
Proof.
  induction xs as [|x xs IH]; intros q Hq.
  - exists (mkChan n q true, Done (@Quiet V)). split; [|now left].
    eapply (@go_act V i _ _ 0 0); [reflexivity|reflexivity|rewrite Nat.add_0_r; apply a_close; reflexivity|reflexivity].
  - destruct (Nat.lt_ge_cases (length q) n) as [L|L].
    + destruct (IH (q ++ [x])) as (g & H & I); [rewrite app_length; cbn; lia|]. exists g. split; [|exact I].
      eapply fs_trans; [|exact H].
      eapply (@go_act V i _ _ 0 0); [reflexivity|reflexivity|rewrite Nat.add_0_r; apply a_push; [reflexivity|exact L]|reflexivity].
    + exists (mkChan n q false, sourceP (x :: xs) i). split; [apply fs_refl|]. right. cbn. repeat split; [exact L|eauto].
Qed.
Lemma settle G : forall b, (forall i g, nth_error G i = Some g -> lazy (b + i) g) ->
  exists G', fsteps b G G' /\ length G' = length G /\ forall i g, nth_error G' i = Some g -> idle (b + i) g.
Proof.
  induction G as [|g G IH]; intros b H.
  - exists []. split; [apply fs_refl|]. split; [reflexivity|]. intros [|i]; discriminate.
  - destruct (IH (S b)) as (G' & R & L & I).
    { intros i x Hx. specialize (H (S i) x Hx). now replace (S b + i) with (b + S i) by lia. }
    assert (E : exists g', fsteps b [g] [g'] /\ idle b g').
    { destruct (H 0 g eq_refl) as [(n & q & xs & Hq & ->)|D]; rewrite ?Nat.add_0_r.
      - now apply settle_one.
      - exists g. split; [apply fs_refl|now left]. }
    destruct E as (g' & R1 & I1). exists (g' :: G'). split; [|split].
    + eapply fs_trans; [apply (@fs_frame_r V b [g] [g'] G R1)|]. apply (@fs_frame V b [g']). cbn. now rewrite Nat.add_1_r.
    + cbn. now rewrite L.
    + intros [|i] x Hx; cbn in Hx; [injection Hx as <-; now rewrite Nat.add_0_r|]. replace (b + S i) with (S b + i) by lia. now apply I.
Qed.
Lemma stuck_idle G m r : (forall i g, nth_error G i = Some g -> idle i g) -> stuck (G ++ [(m, @Done V r)]).
Proof.
  intros H s' St.
  assert (D : forall i p, proc_at (G ++ [(m, Done r)]) i = Some p -> (exists r', p = Done r') \/
    (exists v k ch, p = Send i v k /\ chan_at (G ++ [(m, Done r)]) i = Some ch /\ closed ch = false /\ cap ch <= length (buf ch))).
  { intros i p Hp. destruct (proc_app_cases _ _ _ Hp) as [Hi|[L Hi]].
    - unfold proc_at in Hi. destruct (nth_error G i) as [g|] eqn:E; [|discriminate]. injection Hi as <-.
      destruct (H i g E) as [D|(C & F & v & k & D)]; [left; eauto|]. right. exists v, k, (fst g). repeat split; auto.
      apply chan_app_l. unfold chan_at. now rewrite E.
    - destruct (i - length G) as [|x]; [|destruct x; discriminate]. injection Hi as <-. left. eauto. }
  remember (G ++ [(m, Done r)]) as s eqn:Es.
  destruct St as [s i k Hk|s i c p ch p' ch' H1 H2 A|s i j c v k h ch H1 H2 H3 H4 H5 H6].
  - destruct (D _ _ Hk) as [(r' & E)|(v & k' & ch & E & _)]; discriminate.
  - destruct (D _ _ H1) as [(r' & ->)|(v & k' & ch0 & -> & Hc & C & F)]; [inversion A|].
    inversion A; subst; rewrite H2 in Hc; injection Hc as ->; [lia|congruence].
  - destruct (D _ _ H2) as [(r' & E)|(v' & k' & ch0 & E & _)]; discriminate.
Qed.

(** ** CheckEquals *)
Definition cp : Type := ((nat * list V) * (nat * list V))%type.
Definition flat (Q : list cp) : list (nat * list V) := flat_map (fun p => [fst p; snd p]) Q.
Definition plain (p : cp) : list V * list V := (snd (fst p), snd (snd p)).
Fixpoint cps (b k : nat) : list (nat * nat) := match k with O => [] | S k' => (b, S b) :: cps (S (S b)) k' end.
Lemma flat_length Q : length (flat Q) = 2 * length Q.
Proof. induction Q as [|p Q IH]; [reflexivity|]. cbn in *. unfold flat in IH. rewrite IH. lia. Qed.
Lemma flat_app P Q : flat (P ++ Q) = flat P ++ flat Q. Proof. unfold flat. now rewrite flat_map_app. Qed.
Lemma sources_app b (F G : list (nat * list V)) : sources b (F ++ G) = sources b F ++ sources (b + length F) G.
Proof.
  revert b; induction F as [|[n xs] F IH]; intros b; cbn; [now rewrite Nat.add_0_r|]. rewrite IH. now replace (S b + length F) with (b + S (length F)) by lia.
Qed.
Lemma sources_length b (F : list (nat * list V)) : length (sources b F) = length F.
Proof. revert b; induction F as [|[n xs] F IH]; intros b; cbn; [reflexivity|]. now rewrite IH. Qed.
Lemma pair_up_seq k : forall b, pair_up (seq b (2 * k)) = Some (cps b k).
Proof.
  induction k as [|k IH]; intros b; [reflexivity|]. replace (2 * S k) with (S (S (2 * k))) by lia. cbn [seq pair_up cps]. now rewrite IH.
Qed.
Lemma lazy_sources F : forall b i g, nth_error (sources b F) i = Some g -> lazy (b + i) g.
Proof.
  induction F as [|[n xs] F IH]; intros b [|i] g H; try discriminate; cbn in H.
  - injection H as <-. left. exists n, [], xs. rewrite Nat.add_0_r. split; [cbn; lia|reflexivity].
  - replace (b + S i) with (S b + i) by lia. now apply IH.
Qed.
Lemma lazy_app b (G G' : cfg) : (forall i g, nth_error G i = Some g -> lazy (b + i) g) ->
  (forall i g, nth_error G' i = Some g -> lazy (b + length G + i) g) -> forall i g, nth_error (G ++ G') i = Some g -> lazy (b + i) g.
Proof.
  intros H1 H2 i g H. destruct (Nat.lt_ge_cases i (length G)) as [L|L].
  - rewrite nth_error_app1 in H by exact L. now apply H1.
  - rewrite nth_error_app2 in H by exact L. specialize (H2 _ _ H). now replace (b + length G + (i - length G)) with (b + i) in H2 by lia.
Qed.
Lemma lazy_cons b (g0 : node) (G : cfg) : lazy b g0 -> (forall i g, nth_error G i = Some g -> lazy (S b + i) g) ->
  forall i g, nth_error (g0 :: G) i = Some g -> lazy (b + i) g.
Proof.
  intros H1 H2 [|i] g H; cbn in H; [injection H as <-; now rewrite Nat.add_0_r|]. replace (b + S i) with (S b + i) by lia. now apply H2.
Qed.

Variable eqb : V -> V -> bool.
(** one round of comparisons: an answer, or what is left of all channels *)
Fixpoint round (Q : list cp) : result V + list cp :=
  match Q with
  | [] => inr []
  | ((n, a), (m, e)) :: Q =>
      match a, e with
      | u :: a', w :: e' =>
          if eqb u w then match round Q with inl r => inl r | inr Q' => inr (((n, a'), (m, e')) :: Q') end
          else inl (@Failure V)
      | [], [] => inl (@NoError V)
      | _, _ => inl (@Failure V)
      end
  end.

Lemma round_run all Q : forall F, Nat.Even (length F) ->
  match round Q with
  | inl r => exists G, fsteps 0 (sources 0 F ++ sources (length F) (flat Q) ++ [(mk V 0, checkP eqb all (cps (length F) (length Q)))]) (G ++ [(mk V 0, Done r)]) /\
      length G = length F + length (flat Q) /\ forall i g, nth_error G i = Some g -> lazy i g
  | inr Q' => length Q' = length Q /\
      fsteps 0 (sources 0 F ++ sources (length F) (flat Q) ++ [(mk V 0, checkP eqb all (cps (length F) (length Q)))])
               (sources 0 F ++ sources (length F) (flat Q') ++ [(mk V 0, checkP eqb all [])])
  end.
Proof.
  induction Q as [|[[n a] [m e]] Q IH]; intros F EF.
  { cbn. split; [reflexivity|]. apply fs_refl. }
  set (A := sources 0 F). assert (LA : length A = length F) by apply sources_length.
  set (B := sources (S (S (length F))) (flat Q)).
  assert (Est : forall k : proc, sources (length F) (flat (((n, a), (m, e)) :: Q)) ++ [(mk V 0, k)] =
    (mk V n, sourceP a (length F)) :: (mk V m, sourceP e (S (length F))) :: B ++ [(mk V 0, k)]) by reflexivity.
  rewrite Est. cbn [length cps]. rewrite (frob_eq (checkP eqb all ((length F, S (length F)) :: _))). cbn [frob checkP].
  set (K := fun x : option V => Recv (S (length F)) _).
  (* the two channels, seen from the caller *)
  assert (S1a : forall u a', fsteps 0 (A ++ (mk V n, sourceP (u :: a') (length F)) :: (mk V m, sourceP e (S (length F))) :: B ++ [(mk V 0, Recv (length F) K)])
      (A ++ (mk V n, sourceP a' (length F)) :: (mk V m, sourceP e (S (length F))) :: B ++ [(mk V 0, K (Some u))])).
  { intros u a'. pose proof (@pass_mid A ((mk V m, sourceP e (S (length F))) :: B) n u (sourceP a' (length F)) K (mk V 0)) as P.
    rewrite LA in P. exact P. }
  assert (S1n : fsteps 0 (A ++ (mk V n, sourceP [] (length F)) :: (mk V m, sourceP e (S (length F))) :: B ++ [(mk V 0, Recv (length F) K)])
      (A ++ (mkChan n [] true, Done (@Quiet V)) :: (mk V m, sourceP e (S (length F))) :: B ++ [(mk V 0, K None)])).
  { pose proof (@close_mid A ((mk V m, sourceP e (S (length F))) :: B) n K (mk V 0)) as P. rewrite LA in P. exact P. }
  assert (S2a : forall g w e' h, fsteps 0 (A ++ g :: (mk V m, sourceP (w :: e') (S (length F))) :: B ++ [(mk V 0, Recv (S (length F)) h)])
      (A ++ g :: (mk V m, sourceP e' (S (length F))) :: B ++ [(mk V 0, h (Some w))])).
  { intros g w e' h. pose proof (@pass_mid (A ++ [g]) B m w (sourceP e' (S (length F))) h (mk V 0)) as P.
    rewrite app_length in P. cbn [length] in P. rewrite LA, Nat.add_1_r, <- !app_assoc in P. exact P. }
  assert (S2n : forall g h, fsteps 0 (A ++ g :: (mk V m, sourceP [] (S (length F))) :: B ++ [(mk V 0, Recv (S (length F)) h)])
      (A ++ g :: (mkChan m [] true, Done (@Quiet V)) :: B ++ [(mk V 0, h None)])).
  { intros g h. pose proof (@close_mid (A ++ [g]) B m h (mk V 0)) as P.
    rewrite app_length in P. cbn [length] in P. rewrite LA, Nat.add_1_r, <- !app_assoc in P. exact P. }
  assert (LZ : forall g1 g2, lazy (length F) g1 -> lazy (S (length F)) g2 ->
     length (A ++ g1 :: g2 :: B) = length F + length (flat (((n, a), (m, e)) :: Q)) /\
     forall i g, nth_error (A ++ g1 :: g2 :: B) i = Some g -> lazy i g).
  { intros g1 g2 H1 H2. split.
    - rewrite app_length. cbn [length flat flat_map fst snd app]. unfold B. rewrite sources_length. unfold flat in *. ll.
    - apply (@lazy_app 0); [apply lazy_sources|]. cbn [Nat.add]. rewrite LA. apply lazy_cons; [exact H1|]. apply lazy_cons; [exact H2|]. apply lazy_sources. }
  assert (Lsrc : forall i k xs, lazy i (mk V k, sourceP xs i)) by (intros i k xs; left; exists k, [], xs; split; [cbn; lia|reflexivity]).
  assert (Ldone : forall i c, lazy i (c, Done (@Quiet V))) by (intros; right; reflexivity).
  cbn [round]. destruct a as [|u a], e as [|w e].
  - eexists (A ++ (mkChan n [] true, Done (@Quiet V)) :: (mkChan m [] true, Done (@Quiet V)) :: B). split; [|apply LZ; auto].
    eapply fs_trans; [apply S1n|]. eapply fs_eq; [apply S2n|]. now rewrite <- app_assoc.
  - eexists (A ++ (mkChan n [] true, Done (@Quiet V)) :: (mk V m, sourceP e (S (length F))) :: B). split; [|apply LZ; auto].
    eapply fs_trans; [apply S1n|]. eapply fs_eq; [apply S2a|]. now rewrite <- app_assoc.
  - eexists (A ++ (mk V n, sourceP a (length F)) :: (mkChan m [] true, Done (@Quiet V)) :: B). split; [|apply LZ; auto].
    eapply fs_trans; [apply S1a|]. eapply fs_eq; [apply S2n|]. now rewrite <- app_assoc.
  - pose proof (fs_trans (S1a u a) (S2a (mk V n, sourceP a (length F)) w e _)) as R1. cbv beta iota in R1.
    destruct (eqb u w).
    + assert (R2 : fsteps 0 (A ++ (mk V n, sourceP (u :: a) (length F)) :: (mk V m, sourceP (w :: e) (S (length F))) :: B ++ [(mk V 0, Recv (length F) K)])
         (sources 0 (F ++ [(n, a); (m, e)]) ++ sources (length (F ++ [(n, a); (m, e)])) (flat Q) ++
            [(mk V 0, checkP eqb all (cps (length (F ++ [(n, a); (m, e)])) (length Q)))])).
      { eapply fs_trans; [exact R1|]. rewrite sources_app. cbn [sources]. rewrite !app_length. cbn [length].
        replace (length F + 2) with (S (S (length F))) by lia. cbn [Nat.add]. fold A. fold B.
        pose proof (@tau_last (A ++ (mk V n, sourceP a (length F)) :: (mk V m, sourceP e (S (length F))) :: B) (mk V 0)
                      (checkP eqb all (cps (S (S (length F))) (length Q)))) as T.
        rewrite <- !app_assoc in *. exact T. }
      specialize (IH (F ++ [(n, a); (m, e)])). destruct (round Q) as [r|Q'].
      * destruct IH as (G & R & L & Z).
        { rewrite app_length. destruct EF as [x ->]. exists (S x). cbn. lia. }
        exists G. split; [eapply fs_trans; [exact R2|exact R]|]. split; [|exact Z].
        rewrite L, app_length. cbn [length flat flat_map fst snd app]. unfold flat. ll.
      * destruct IH as [L R].
        { rewrite app_length. destruct EF as [x ->]. exists (S x). cbn. lia. }
        split; [cbn; now rewrite L|]. eapply fs_trans; [exact R2|]. eapply fs_eq; [exact R|].
        rewrite sources_app, <- app_assoc, app_length. cbn [length flat flat_map fst snd app sources Nat.add].
        fold (flat Q'). replace (length F + 2) with (S (S (length F))) by lia. reflexivity.
    + exists (A ++ (mk V n, sourceP a (length F)) :: (mk V m, sourceP e (S (length F))) :: B). split; [|apply LZ; auto].
      eapply fs_eq; [exact R1|]. now rewrite <- app_assoc.
Qed.

(** ** the answers *)
Definition heads (p : cp) : Prop :=
  exists u w, nth_error (snd (fst p)) 0 = Some u /\ nth_error (snd (snd p)) 0 = Some w /\ eqb u w = true.
Definition agree_at (i : nat) (pairs : list (list V * list V)) : Prop :=
  exists j a e, nth_error pairs j = Some (a, e) /\ length a = i /\ length e = i /\
    forall j' a' e', nth_error pairs j' = Some (a', e') -> forall i', (i' < i \/ (i' = i /\ j' < j)) ->
      exists u w, nth_error a' i' = Some u /\ nth_error e' i' = Some w /\ eqb u w = true.
Definition tails (p : cp) : cp := ((fst (fst p), tl (snd (fst p))), (fst (snd p), tl (snd (snd p)))).
Lemma round_inr Q : forall Q', round Q = inr Q' <-> (Forall heads Q /\ Q' = map tails Q).
Proof.
  induction Q as [|[[n a] [m e]] Q IH]; intros Q'; cbn [round].
  { split; [intros H; injection H as <-; split; [constructor|reflexivity]|intros [_ ->]; reflexivity]. }
  destruct a as [|u a], e as [|w e].
  1-3: split; [discriminate|intros [F _]; apply Forall_inv in F; destruct F as (x & y & F1 & F2 & _); discriminate].
  destruct (eqb u w) eqn:E.
  - destruct (round Q) as [r|Q''] eqn:R.
    + split; [discriminate|]. intros [F _]. apply Forall_inv_tail in F. pose proof (proj2 (IH (map tails Q)) (conj F eq_refl)); discriminate.
    + destruct (proj1 (IH Q'') eq_refl) as [F ->]. split.
      * intros H. injection H as <-. split; [|reflexivity]. constructor; [|exact F]. exists u, w. now repeat split.
      * intros [_ ->]. reflexivity.
  - split; [discriminate|]. intros [F _]. apply Forall_inv in F. destruct F as (x & y & F1 & F2 & F3). cbn in F1, F2. congruence.
Qed.
Lemma round_ok Q : round Q = inl (@NoError V) <-> agree_at 0 (map plain Q).
Proof.
  induction Q as [|[[n a] [m e]] Q IH]; cbn [round].
  { split; [discriminate|]. intros (j & a & e & H & _). destruct j; discriminate. }
  destruct a as [|u a], e as [|w e].
  - split; [|reflexivity]. intros _. exists 0, [], []. repeat split. intros j' a' e' _ i' Hi. lia.
  - split; [discriminate|]. intros ([|j] & a' & e' & H & L1 & L2 & Z).
    + cbn in H. injection H as <- <-. discriminate.
    + destruct (Z 0 [] (w :: e) eq_refl 0) as (x & y & H1 & _); [lia|discriminate].
  - split; [discriminate|]. intros ([|j] & a' & e' & H & L1 & L2 & Z).
    + cbn in H. injection H as <- <-. discriminate.
    + destruct (Z 0 (u :: a) [] eq_refl 0) as (x & y & _ & H1 & _); [lia|discriminate].
  - destruct (eqb u w) eqn:E.
    + destruct (round Q) as [r|Q'] eqn:R.
      * split.
        -- intros H. apply IH in H. destruct H as (j & a' & e' & H & L1 & L2 & Z). exists (S j), a', e'. repeat split; auto.
           intros [|j'] a2 e2 H2 i' Hi; [|eapply Z; [exact H2|lia]].
           cbn in H2. injection H2 as <- <-. assert (i' = 0) as -> by lia. exists u, w. auto.
        -- intros ([|j] & a' & e' & H & L1 & L2 & Z); [cbn in H; injection H as <- <-; discriminate|].
           apply IH. exists j, a', e'. repeat split; auto. intros j' a2 e2 H2 i' Hi. apply (Z (S j') a2 e2 H2). lia.
      * split; [discriminate|]. intros ([|j] & a' & e' & H & L1 & L2 & Z); [cbn in H; injection H as <- <-; discriminate|].
        exfalso. enough (@inr (result V) _ Q' = inl (@NoError V)) by discriminate. apply IH.
        exists j, a', e'. repeat split; auto. intros j' a2 e2 H2 i' Hi. apply (Z (S j') a2 e2 H2). lia.
    + split; [discriminate|]. intros ([|j] & a' & e' & H & L1 & L2 & Z).
      * cbn in H. injection H as <- <-. discriminate.
      * destruct (Z 0 (u :: a) (w :: e) eq_refl 0) as (x & y & H1 & H2 & H3); [lia|]. cbn in H1, H2. congruence.
Qed.
Lemma agree_S i Q : agree_at (S i) (map plain Q) <-> (Forall heads Q /\ agree_at i (map plain (map tails Q))).
Proof.
  rewrite map_map. split.
  - intros (j & a & e & H & L1 & L2 & Z). rewrite nth_error_map in H. destruct (nth_error Q j) as [[[n a0] [m e0]]|] eqn:E; [|discriminate].
    cbn in H. injection H as -> ->. split.
    + apply Forall_forall. intros p Hp. apply In_nth_error in Hp. destruct Hp as [j' Hj].
      apply (Z j' (snd (fst p)) (snd (snd p))); [|lia]. now rewrite nth_error_map, Hj.
    + destruct a as [|u a]; [discriminate|]. destruct e as [|w e]; [discriminate|]. exists j, a, e. split; [|split; [|split]].
      * now rewrite nth_error_map, E.
      * cbn in L1. lia.
      * cbn in L2. lia.
      * intros j' a' e' H' i' Hi. rewrite nth_error_map in H'. destruct (nth_error Q j') as [[[n' a1] [m' e1]]|] eqn:E'; [|discriminate].
        cbn in H'. injection H' as <- <-. destruct (Z j' a1 e1) with (i' := S i') as (x & y & H1 & H2 & H3); [now rewrite nth_error_map, E'|lia|].
        destruct a1 as [|? a1]; [discriminate|]. destruct e1 as [|? e1]; [discriminate|]. exists x, y. auto.
  - intros [F (j & a & e & H & L1 & L2 & Z)]. rewrite nth_error_map in H. destruct (nth_error Q j) as [[[n a0] [m e0]]|] eqn:E; [|discriminate].
    cbn in H. injection H as <- <-. rewrite Forall_forall in F.
    destruct (F _ (nth_error_In _ _ E)) as (u & w & H1 & H2 & H3). cbn in H1, H2.
    exists j, a0, e0. split; [now rewrite nth_error_map, E|]. destruct a0 as [|u0 a0]; [discriminate|]. destruct e0 as [|w0 e0]; [discriminate|].
    cbn in L1, L2 |- *. split; [lia|]. split; [lia|].
    intros j' a' e' H' i' Hi. rewrite nth_error_map in H'. destruct (nth_error Q j') as [[[n' a1] [m' e1]]|] eqn:E'; [|discriminate].
    cbn in H'. injection H' as <- <-. destruct i' as [|i'].
    + apply (F _ (nth_error_In _ _ E')).
    + destruct (Z j' (tl a1) (tl e1)) with (i' := i') as (x & y & G1 & G2 & G3); [now rewrite nth_error_map, E'|lia|].
      exists x, y. destruct a1; [destruct i'; discriminate|]. destruct e1; [destruct i'; discriminate|]. auto.
Qed.
Lemma round_err Q r : round Q = inl r -> r = @NoError V \/ r = @Failure V.
Proof.
  revert r; induction Q as [|[[n a] [m e]] Q IH]; intros r H; cbn in H; [discriminate|].
  destruct a as [|u a], e as [|w e]; try (injection H as <-; auto). destruct (eqb u w); [|injection H as <-; auto].
  destruct (round Q) as [r'|]; [|discriminate]. injection H as <-. auto.
Qed.

Lemma check_run n a me Q0 : let Q := ((n, a), me) :: Q0 in
  exists r G, fsteps 0 (sources 0 (flat Q) ++ [(mk V 0, checkP eqb (cps 0 (length Q)) (cps 0 (length Q)))]) (G ++ [(mk V 0, Done r)]) /\
    length G = length (flat Q) /\ (forall i g, nth_error G i = Some g -> lazy i g) /\
    (r = @NoError V \/ r = @Failure V) /\ (r = @NoError V <-> agree eqb (map plain Q)).
Proof.
  cbv zeta. revert n me Q0; induction a as [|u a IH]; intros n me Q0; set (Q := ((n, _), me) :: Q0);
    pose proof (@round_run (cps 0 (length Q)) Q [] (ex_intro _ 0 eq_refl)) as R; cbn [sources app length] in R;
    pose proof (round_ok Q) as OK; pose proof (round_inr Q) as INR; pose proof (@round_err Q) as ERR;
    destruct (round Q) as [r|Q'] eqn:RQ.
  1,3: (destruct R as (G & R & L & Z); exists r, G; split; [exact R|]; split; [exact L|]; split; [exact Z|]; split; [now apply ERR|];
    split; [intros ->; destruct (proj1 OK eq_refl) as (j & x & y & H); exists 0, j, x, y; exact H|];
    intros (i & j & x & y & H); destruct i as [|i];
      [enough (@inl (result V) (list cp) r = inl (@NoError V)) by congruence; apply OK; exists j, x, y; exact H|];
    assert (A : agree_at (S i) (map plain Q)) by (exists j, x, y; exact H);
    apply agree_S in A; destruct A as [F _]; pose proof (proj2 (INR _) (conj F eq_refl)); discriminate).
  - exfalso. destruct (proj1 (INR Q') eq_refl) as [F _]. apply Forall_inv in F. destruct F as (x & y & H & _). discriminate.
  - destruct R as [L R]. destruct (proj1 (INR Q') eq_refl) as [F E]. subst Q'.
    destruct (IH n (fst (snd (tails ((n, u :: a), me))), snd (snd (tails ((n, u :: a), me)))) (map tails Q0)) as (r & G & R' & L' & Z & ER & IFF).
    exists r, G. split; [|split; [|split; [exact Z|split; [exact ER|]]]].
    + eapply fs_trans; [exact R|]. rewrite (frob_eq (checkP eqb _ [])). cbn [frob checkP]. eapply fs_trans; [apply tau_last|].
      cbn [length] in R'. rewrite map_length in R'. exact R'.
    + rewrite L', !flat_length. cbn [length]. now rewrite map_length.
    + rewrite IFF. split.
      * intros (i & H). exists (S i). apply agree_S. split; [exact F|]. exact H.
      * intros (i & H). destruct i as [|i].
        -- assert (X : agree_at 0 (map plain Q)) by exact H. apply OK in X. discriminate.
        -- assert (X : agree_at (S i) (map plain Q)) by exact H. apply agree_S in X. destruct X as [_ X]. exists i. exact X.
Qed.

Lemma owned_sources F : forall b i (p : proc), proc_at (sources b F) i = Some p -> forall R, uses R (fun c => c = b + i) p.
Proof.
  induction F as [|[n xs] F IH]; intros b [|i] p H R; try discriminate; cbn in H.
  - injection H as <-. apply uses_source. lia.
  - replace (b + S i) with (S b + i) by lia. now apply IH.
Qed.
Lemma cps_all (P : nat -> Prop) k : forall b, (forall c, P c) -> Forall (fun ae => P (fst ae) /\ P (snd ae)) (cps b k).
Proof. induction k as [|k IH]; intros b H; cbn; constructor; auto. Qed.
Lemma owned_checked ins k : length ins = 2 * k -> owned (fun _ => length ins) (fun c => c) (checked eqb ins).
Proof.
  intros Hk i p Hp. unfold checked in Hp. destruct (proc_app_cases _ _ _ Hp) as [H|[L H]].
  - now apply (@owned_sources ins 0).
  - rewrite sources_length in *. destruct (i - length ins) as [|m] eqn:E; [|destruct m; discriminate]. injection H as <-.
    unfold checkEqualsP. rewrite Hk, pair_up_seq. apply uses_check; apply (@cps_all (fun _ => 2 * k = i)); intros; lia.
Qed.
Lemma flat_of (ins : list (nat * list V)) : forall k, length ins = 2 * k ->
  exists Q, ins = flat Q /\ length Q = k /\ paired (map snd ins) = map plain Q.
Proof.
  intros k; revert ins; induction k as [|k IH]; intros ins H.
  - destruct ins; [|discriminate]. exists []. repeat split.
  - destruct ins as [|x [|y ins]]; cbn in H; try lia. destruct (IH ins) as (Q & -> & L & E); [lia|].
    exists ((x, y) :: Q). cbn. rewrite L, E. repeat split.
Qed.
Theorem check_ends ins k : length ins = 2 * S k -> exists N z r,
  always_ends (checked eqb ins) N z /\ (exists gs ch, z = gs ++ [(ch, Done r)]) /\
  (r = @NoError V \/ r = @Failure V) /\ (r = @NoError V <-> agree eqb (paired (map snd ins))).
Proof.
  intros Hk. destruct (@flat_of ins (S k) Hk) as (Q & EQ & LQ & EP). destruct Q as [|[[n a] me] Q0]; [discriminate|].
  destruct (@check_run n a me Q0) as (r & G & R & L & Z & ER & IFF).
  destruct (@settle G 0 Z) as (G' & R2 & L2 & I).
  pose proof (fs_trans R (@fs_frame_r V 0 G G' [(mk V 0, Done r)] R2)) as R3.
  destruct (R3 [] [] eq_refl) as (N & HN). cbn [app] in HN. rewrite !app_nil_r in HN.
  exists N, (G' ++ [(mk V 0, Done r)]), r. split; [|split; [eauto|split; [exact ER|now rewrite EP]]].
  eapply ends_of; [eapply owned_checked; exact Hk| |apply stuck_idle; exact I].
  unfold checked, checkEqualsP. rewrite Hk, pair_up_seq, EQ, <- LQ. exact HN.
Qed.
End Check.
