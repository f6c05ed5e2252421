(** An index that gives fewer integers than the entry has repeat dimensions (C12). *)
From Verif Require Import PyBase IndexModel DMModel StructModel StructSpec PowerModel PowerSpec
  IndexProofs StructProofs LayoutProofs LayoutThms LayoutExamples DMProofs PowerProofs PowerThms SliceProofs PowerThms2 PowerThms3 PowerThms4.

Section P.
Context {T : Type} (zero : T).
Notation rval := (rval T).
Notation pel := (pel T).
Notation pay := (pay T).
Notation env := (env T).
Notation einfo := (einfo T).
Notation pstate := (pstate T).
Notation clos := (@clos T).

Lemma travD_None' (en : env) ei sub md : md <> MInject -> forall ds ci p st,
  (forall jdx, InDims jdx ds -> cmap_get (ci ++ map KI jdx) (en_map en) = None) ->
  let (st', r) := travD zero en ei sub ds md [] ci p st in
  st' = st /\ (Forall (fun d => (0 < d)%Z) ds -> r = Err EException).
Proof.
  intros Hmd. induction ds as [|d ds IH]; intros ci p st Hn.
  - cbn [travD]. specialize (Hn [] (Forall2_nil _)). cbn [map] in Hn. rewrite app_nil_r in Hn.
    rewrite dispatch_None by assumption. auto.
  - cbn [travD]. unfold mwrap. unfold mbind at 1, mlift at 1.
    destruct (slice_range slice_all d) as [l|x] eqn:El; [|cbn; auto].
    assert (Hpos : (0 <= d)%Z) by (destruct (Z_lt_le_dec d 0) as [H|H]; [rewrite slice_range_neg in El by exact H; discriminate|exact H]).
    rewrite slice_range_all in El by exact Hpos. injection El as <-. unfold mbind at 1.
    match goal with |- context [mmapM ?g] => set (step := g) end.
    assert (G : forall l st, (forall i, In i l -> (0 <= i < d)%Z) -> let (st', r) := mmapM step (map KI l) st in st' = st /\
       (Forall (fun d => (0 < d)%Z) ds -> l <> [] -> exists x, r = Err x)).
    { clear st. induction l as [|i l IHl]; intros st Hl; [split; [reflexivity|congruence]|].
      cbn [map mmapM]. unfold mbind at 1. unfold step at 1. unfold mbind at 1, mlift.
      destruct (payloadUnpack p (KI i)) as [q|x]; [|cbn; eauto].
      assert (Hi : (0 <= i < d)%Z) by (apply Hl; now left).
      assert (Ec : canonical i d = i) by (unfold canonical; destruct (Z.ltb_spec i 0); lia).
      pose proof (IH (ci ++ [KI (canonical i d)]) q st) as H1.
      destruct (travD zero en ei sub ds md [] (ci ++ [KI (canonical i d)]) q st) as [st1 [r|x]].
      all: destruct H1 as [-> H2]; [intros jdx Hj; rewrite <- app_assoc, Ec; apply (Hn (i :: jdx)); constructor; [lia|exact Hj]|].
      - pose proof (IHl st (fun j h => Hl j (or_intror h))) as H3. unfold mbind.
        destruct (mmapM step (map KI l) st) as [st2 [rs|x]]; destruct H3 as [-> _]; (split; [reflexivity|]); intros Hp _; specialize (H2 Hp); discriminate.
      - split; [reflexivity|eauto]. }
    pose proof (G (pyrange d) st (fun i h => proj1 (in_pyrange i d) h)) as G1.
    destruct (mmapM step (map KI (pyrange d)) st) as [st1 [rs|x]]; destruct G1 as [-> G2]; cbn; (split; [reflexivity|]); auto.
    intros HF. apply Forall_cons_iff in HF as [Hd HF]. destruct (G2 HF) as (x & Hx); [|discriminate].
    intros E0. apply (f_equal (@length Z)) in E0. rewrite pyrange_length in E0. cbn in E0. lia.
Qed.

Lemma app_inv_len {A} (a b c d : list A) : length a = length c -> a ++ b = c ++ d -> a = c /\ b = d.
Proof.
  revert c. induction a as [|x a IH]; intros [|y c] Hl E; try discriminate; [auto|]. simpl in *. injection E as -> E.
  destruct (IH c ltac:(lia) E) as [-> ->]. auto.
Qed.
Lemma inDims_from_ends ds1 ds2 idx jdx : length idx = length ds1 ->
  InDims (from_ends ds1 idx ++ jdx) (ds1 ++ ds2) -> Forall2 (fun i d => (- d <= i < d)%Z) idx ds1.
Proof.
  intros Hl H. apply within_from_ends. split; [exact Hl|].
  apply Forall2_app_inv_l in H as (l1 & l2 & H1 & H2 & E).
  assert (length ds1 = length l1).
  { pose proof (Forall2_len _ _ _ H1) as E1. unfold from_ends in E1. rewrite map_length, combine_length in E1. lia. }
  destruct (app_inv_len _ _ _ _ H E) as [-> _]. exact H1.
Qed.

Theorem prefix_out_of_range s c (st : pstate) e ds1 ds2 idx v :
  Obj s c st -> In e (s_entries s) -> e_dims e = ds1 ++ ds2 -> length idx = length ds1 ->
  ~ Forall2 (fun i d => (- d <= i < d)%Z) idx ds1 ->
  let ix := PStr (e_name e) :: map (fun i => PInt i) idx in
  fst (setitem zero s (num_env c) ix v st) = st /\
  (Forall (fun d => (0 < d)%Z) ds2 ->
     getitem zero s (num_env c) ix st = Err EException /\ setitem zero s (num_env c) ix v st = (st, Err EException)).
Proof.
  intros Ho He Hd Hl Hn ix. pose proof (ob_wf _ _ _ Ho) as Hw. pose proof (ob_built _ _ _ Ho) as Hc.
  assert (Hnone : forall jdx, InDims jdx ds2 -> cmap_get ((KS (e_name e) :: map KI (from_ends ds1 idx)) ++ map KI jdx) (en_map (@num_env T c)) = @None (dm nat)).
  { intros jdx Hj. cbn [num_env en_map]. apply (map_None s c _ Hw Hc). intros (e' & Ha). apply Hn. cbn [app] in Ha. rewrite <- map_app in Ha.
    inversion Ha as [s0 e0 idx0 He0 Hd0 E1|s0 e0 idx0 s1 ci1 e2 He0 Es0 Hd0 Ha1 E1]; subst.
    - pose proof (name_inj _ _ _ (Wf_NoDup _ Hw) He0 He H) as ->. 
      assert (idx0 = from_ends ds1 idx ++ jdx) as ->. { revert H0. generalize (from_ends ds1 idx ++ jdx). clear. induction idx0; intros [|y l] E; try discriminate; [reflexivity|]. injection E as -> E. f_equal; auto. }
      rewrite Hd in Hd0. eapply inDims_from_ends; eauto.
    - exfalso. destruct (At_starts _ _ _ Ha1) as (n & r & ->). symmetry in H0. exact (KS_not_in_KI _ _ _ _ H0). }
  assert (Hset : forall md p, md <> MInject -> let (st', r) := travS zero s (num_env c) md ix [] p st in
     st' = st /\ (Forall (fun d => (0 < d)%Z) ds2 -> r = Err EException)).
  { intros md p Hmd. unfold ix. rewrite travS_name by auto using Wf_NoDup. rewrite Hd, <- (app_nil_r (map _ idx)), mwrap_travD, travD_prefix, mwrap_travD by exact Hl.
    apply (travD_None' (num_env c) (info zero e) (subT zero e) md Hmd ds2 _ p st Hnone). }
  pose proof (Hset MSet v ltac:(discriminate)) as HS. pose proof (Hset MGet PayNone ltac:(discriminate)) as HG.
  unfold setitem, getitem. destruct (travS zero s (num_env c) MSet ix [] v st) as [st1 r1]. destruct (travS zero s (num_env c) MGet ix [] PayNone st) as [st2 r2].
  destruct HS as [-> HS], HG as [-> HG]. split; [reflexivity|]. intros HF. rewrite (HS HF), (HG HF). auto.
Qed.

(** A read is accepted exactly when every integer given is within its dimension, or one of the
    dimensions left open is empty (then it returns nested empty lists). *)
Theorem prefix_accepted s c (st : pstate) e ds1 ds2 idx :
  Obj s c st -> In e (s_entries s) -> e_struct e = None -> e_symm e = false -> e_dims e = ds1 ++ ds2 -> length idx = length ds1 ->
  Forall (fun d => (0 <= d)%Z) ds2 ->
  let ix := PStr (e_name e) :: map (fun i => PInt i) idx in
  ((exists R, getitem zero s (num_env c) ix st = Ok R) <-> Forall2 (fun i d => (- d <= i < d)%Z) idx ds1 \/ In 0%Z ds2) /\
  (In 0%Z ds2 -> getitem zero s (num_env c) ix st = Ok (nested ds2 (fun _ => RNone))).
Proof.
  intros Ho He Hes Hs Hd Hl Hpos ix. pose proof (ob_wf _ _ _ Ho) as Hw.
  assert (Hz : In 0%Z ds2 -> getitem zero s (num_env c) ix st = Ok (nested ds2 (fun _ => RNone))).
  { intros H0. apply (pending_nested zero s (num_env c) e ds1 ds2); auto. intros jdx Hj. exfalso.
    clear - H0 Hj. induction Hj as [|i d jdx ds Hi Hj IH]; [destruct H0|]. destruct H0 as [->|H0]; [lia|auto]. }
  split; [|exact Hz]. split.
  - intros (R & HR). destruct (in_dec Z.eq_dec 0%Z ds2) as [H0|H0]; [auto|left].
    assert (HF : Forall (fun d => (0 < d)%Z) ds2).
    { rewrite Forall_forall in *. intros d Hin. specialize (Hpos d Hin). assert (d <> 0%Z) by (intros ->; contradiction). lia. }
    assert (Dec : Forall2 (fun i d => (- d <= i < d)%Z) idx ds1 \/ ~ Forall2 (fun i d => (- d <= i < d)%Z) idx ds1).
    { clear. revert ds1. induction idx as [|i idx IH]; intros [|d ds]; try (right; intros H; inversion H; fail); [left; constructor|].
      destruct (IH ds) as [H|H]; [|right; intros H'; inversion H'; auto].
      destruct (Z_le_dec (- d) i); [destruct (Z_lt_dec i d); [left; constructor; auto|]|]; right; intros H'; inversion H'; subst; lia. }
    destruct Dec as [H|H]; [exact H|]. exfalso.
    destruct (prefix_out_of_range s c st e ds1 ds2 idx PayNone Ho He Hd Hl H) as [_ G]. destruct (G HF) as [G1 _]. unfold ix in HR. congruence.
  - intros [Hin|H0]; [|eauto].
    assert (Hall : forall jdx, InDims jdx ds2 -> exists R, getitem zero s (num_env c) (PStr (e_name e) :: map (fun i => PInt i) (idx ++ jdx)) st = Ok R).
    { intros jdx Hj. assert (Hw' : Forall2 (fun i d => (- d <= i < d)%Z) (idx ++ jdx) (e_dims e)).
      { rewrite Hd. apply Forall2_app; [exact Hin|]. revert Hj. apply Forall2_impl. intros; lia. }
      assert (Epi : PStr (e_name e) :: map (fun i => PInt i) (idx ++ jdx) = @pidx T (KS (e_name e) :: map KI (idx ++ jdx))).
      { unfold pidx. simpl. f_equal. now rewrite map_map. }
      rewrite Epi. apply (int_accepted_iff zero s c st _ (KS (e_name e) :: map KI (from_ends (e_dims e) (idx ++ jdx))) e); auto.
      - apply Addr_here; [exact He|]. apply (Forall2_len _ _ _ Hw').
      - now apply Within_here. }
    eexists. apply (pending_nested zero s (num_env c) e ds1 ds2 idx st 
      (fun jdx => match getitem zero s (num_env c) (PStr (e_name e) :: map (fun i => PInt i) (idx ++ jdx)) st with Ok R => R | Err _ => RNone end)); auto.
    intros jdx Hj. destruct (Hall jdx Hj) as (R & ->). reflexivity.
Qed.
End P.
