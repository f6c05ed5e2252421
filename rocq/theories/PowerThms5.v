(** Symmetric entries (C26, C27). *)
From Verif Require Import PyBase IndexModel DMModel StructModel StructSpec PowerModel PowerSpec
  IndexProofs StructProofs LayoutProofs LayoutThms LayoutExamples DMProofs PowerProofs PowerThms SliceProofs PowerThms2 PowerThms3 PowerThms4.

Open Scope nat_scope.
Section P.
Context {T : Type} (zero : T).
Notation rval := (rval T).
Notation pel := (pel T).
Notation pay := (pay T).
Notation env := (env T).
Notation einfo := (einfo T).
Notation pstate := (pstate T).

Definition mirror (d : dm T) (p : nat * nat) : option T :=
  if fst p <=? snd p then dm_at d p else dm_at d (snd p, fst p).
Lemma mirror_sym d a b : mirror d (a, b) = mirror d (b, a).
Proof.
  unfold mirror; simpl. destruct (a <=? b) eqn:E1, (b <=? a) eqn:E2; try reflexivity.
  - apply Nat.leb_le in E1, E2. assert (a = b) by lia. now subst.
  - apply Nat.leb_gt in E1, E2. lia.
Qed.

Lemma triu_ok (d : dm T) n : DmOk d -> dm_nr d = n -> dm_nc d = n -> Forall (fun p => fst p <= snd p) (sp_pat (dm_sp d)) ->
  exists R, dm_triu2symm d = Ok R /\ DmOk R /\ dm_shape R = (n, n) /\ forall p, dm_at R p = mirror d p.
Proof.
  intros Hd Hr Hc Hu. unfold dm_triu2symm. rewrite Hr, Hc, Nat.eqb_refl. simpl.
  destruct (existsb _ _) eqn:E.
  - apply existsb_exists in E as (p & Hp & E). apply Nat.ltb_lt in E. rewrite Forall_forall in Hu. specialize (Hu p Hp). lia.
  - eexists. split; [reflexivity|]. split; [apply dm_build_ok|]. split; [reflexivity|]. intros p. rewrite dm_build_at.
    fold (mirror d p). destruct ((fst p <? n) && (snd p <? n)) eqn:Eb; [reflexivity|]. symmetry.
    unfold mirror. destruct (fst p <=? snd p).
    + destruct (dm_at d p) eqn:Ev; [|reflexivity]. destruct (dm_at_bounds d _ _ Hd Ev) as [H1 H2]. rewrite Hr in H1. rewrite Hc in H2.
      apply Nat.ltb_lt in H1, H2. rewrite H1, H2 in Eb. discriminate.
    + destruct (dm_at d _) eqn:Ev; [|reflexivity]. destruct (dm_at_bounds d _ _ Hd Ev) as [H1 H2]. simpl in *. rewrite Hr in H1. rewrite Hc in H2.
      apply Nat.ltb_lt in H1, H2. rewrite H1, H2 in Eb. discriminate.
Qed.

Lemma vec_get_ok (v : list T) i : (dm_nr i =? 1) && negb (dm_nc i =? 1) = false -> inb v i -> vec_get v i = Ok (vals zero v i).
Proof.
  intros H Hi. unfold vec_get. rewrite (get_all zero v _ Hi). simpl. fold (dm_nr i) (dm_nc i). rewrite H. reflexivity.
Qed.

Lemma nz_inj (m : dm nat) p q k : DmOk m -> NoDup (dm_nz m) -> dm_at m p = Some k -> dm_at m q = Some k -> p = q.
Proof.
  intros Hm Hnd Hp Hq. pose proof (dm_at_In _ _ _ Hp) as Ip. pose proof (dm_at_In _ _ _ Hq) as Iq.
  apply In_nth_error in Ip as (a & Ha), Iq as (b & Hb).
  rewrite (dm_at_nth m a p Hm Ha) in Hp. rewrite (dm_at_nth m b q Hm Hb) in Hq.
  assert (a = b). { apply (NoDup_nth_error (dm_nz m)); [exact Hnd|eapply nth_error_Some_lt_; eauto|congruence]. }
  subst. congruence.
Qed.

Lemma set_at (v : list T) i f p k : DmOk i -> NoDup (dm_nz i) -> inb v i -> dm_at i p = Some k ->
  nth k (vec_set_list v (dm_nz i) (map f (sp_pat (dm_sp i)))) zero = f p.
Proof.
  intros Hi Hnd Hb Hp. pose proof (dm_at_In _ _ _ Hp) as Ip. apply In_nth_error in Ip as (a & Ha).
  rewrite (dm_at_nth i a p Hi Ha) in Hp. apply nth_error_nth. eapply vec_set_list_at; eauto. now apply map_nth_error.
Qed.
Lemma set_other (v : list T) ks xs k : ~ In k ks -> nth k (vec_set_list v ks xs) zero = nth k v zero.
Proof.
  intros H. pose proof (vec_set_list_other ks v xs k H) as E.
  destruct (nth_error v k) as [x|] eqn:Ev.
  - rewrite (nth_error_nth _ _ zero E), (nth_error_nth _ _ zero Ev). reflexivity.
  - apply nth_error_None in E, Ev. rewrite !nth_overflow; auto.
Qed.

Section Entry.
Context (s : structure) (c : cstruct) (ci : cidx) (e : entry) (n : nat) (orig : spy) (m : dm nat).
Hypothesis (Hw : Wf s) (Hc : casadi_structure s = Ok c) (Ha : At s ci e) (Hs : SymmEntry e n orig) (Hm : cmap_get ci (cs_map c) = Some m).

Lemma sy_sp : dm_sp m = e_sp e.
Proof.
  destruct (map_get_leaf s c ci e Hw Hc (At_Leaf _ _ _ Ha (se_prim _ _ _ Hs))) as (m' & Hm' & E). congruence.
Qed.
Lemma sy_nr : dm_nr m = n.
Proof. unfold dm_nr. rewrite sy_sp, (se_sp _ _ _ Hs). reflexivity. Qed.
Lemma sy_nc : dm_nc m = n.
Proof. unfold dm_nc. rewrite sy_sp, (se_sp _ _ _ Hs). reflexivity. Qed.
Lemma sy_up : Forall (fun p => fst p <= snd p) (sp_pat (dm_sp m)).
Proof.
  rewrite sy_sp, (se_sp _ _ _ Hs). simpl. apply Forall_forall. intros p Hp. apply filter_In in Hp as [_ Hp]. now apply Nat.leb_le in Hp.
Qed.
Lemma sy_pat p : In p (sp_pat (dm_sp m)) <-> In p (sp_pat orig) /\ fst p <= snd p.
Proof. rewrite sy_sp, (se_sp _ _ _ Hs). simpl. rewrite filter_In, Nat.leb_le. reflexivity. Qed.
Lemma sy_ok : DmOk m /\ NoDup (dm_nz m) /\ Forall (fun k => k < cs_size c) (dm_nz m).
Proof. destruct (map_ok s c ci m Hw Hc Hm) as (_ & H1 & H2 & H3 & _). auto. Qed.

Lemma sy_inb (st : pstate) : Obj s c st -> inb (ps_master st) m.
Proof. intros Ho. unfold inb. rewrite (ob_len _ _ _ Ho). apply sy_ok. Qed.

Lemma sy_read (st : pstate) : Obj s c st -> exists R, getitem zero s (num_env c) (pidx ci) st = Ok (RMat R) /\ DmOk R /\ dm_shape R = (n, n) /\
  forall p, dm_at R p = mirror (vals zero (ps_master st) m) p.
Proof.
  intros Ho. unfold getitem. rewrite <- (app_nil_r (pidx ci)), (travS_at zero s ci e Ha Hw).
  destruct (triu_ok (vals zero (ps_master st) m) n) as (R & ER & H1 & H2 & H3).
  - apply DmOk_map, sy_ok.
  - apply sy_nr.
  - apply sy_nc.
  - apply sy_up.
  - exists R. split; [|auto]. rewrite mwrap_snd. simpl. unfold getter. simpl. rewrite Hm, (se_symm _ _ _ Hs). unfold mbind, mlift, get_master. simpl.
    rewrite (vec_get_ok (ps_master st) m); [|rewrite sy_nr, sy_nc; destruct n as [|[|]]; reflexivity|now apply sy_inb].
    cbn [rbind]. rewrite ER. reflexivity.
Qed.

Lemma sy_set_full (st : pstate) v P : Obj s c st -> pay_ok v -> to_mtype v = Ok P -> dm_sp P = orig ->
  exists st' r, setitem zero s (num_env c) (pidx ci) v st = (st', Ok r) /\
    Obj s c st' /\ unchanged (dm_nz m) st st' /\
    forall p k, dm_at m p = Some k -> nth k (ps_master st') zero = dm_val zero P p.
Proof.
  intros Ho Hv HM HP. unfold setitem. rewrite <- (app_nil_r (pidx ci)), (travS_at zero s ci e Ha Hw).
  pose proof (to_mtype_ok v P Hv HM) as HPok. destruct sy_ok as (Hok & Hnd & Hb). pose proof (sy_inb st Ho) as Hib.
  simpl. unfold mwrap, setter, mbind, mlift. rewrite HM. simpl. rewrite Hm, (se_symm _ _ _ Hs). simpl.
  assert (Hrc : dm_nr P = n /\ dm_nc P = n) by (unfold dm_nr, dm_nc; rewrite HP; split; apply Hs). destruct Hrc as [Hr1 Hr2].
  destruct (dm_is_scalar P) eqn:Es.
  - (* 1 x 1 *)
    assert (Hn1 : n = 1). { unfold dm_is_scalar in Es. rewrite Hr1 in Es. apply andb_true_iff in Es as [Es _]. now apply Nat.eqb_eq in Es. }
    destruct (vec_set_ok zero (ps_master st) m P Hok HPok Hib) as [[Hf E1]|[Hf _]]; [|exfalso; apply Hf; right; left; unfold dm_shape; rewrite Hr1, Hr2; fold (dm_nr m) (dm_nc m); now rewrite sy_nr, sy_nc].
    rewrite E1. set (v1 := vec_set_list _ _ _) in *. 
    assert (L1 : length v1 = length (ps_master st)) by apply vec_set_list_length.
    simpl. destruct (vec_set_ok zero v1 m P Hok HPok) as [[_ E2]|[Hf' _]]; [unfold inb; now rewrite L1| |contradiction].
    rewrite E2. set (v2 := vec_set_list _ _ _). assert (L2 : length v2 = length v1) by apply vec_set_list_length.
    eexists _, _. split; [reflexivity|]. split; [apply (Obj_with_master s c st v2 Ho); congruence|]. split.
    + split; simpl; [congruence|]. intros k Hk. unfold v2. rewrite vec_set_list_other by exact Hk. unfold v1. now rewrite vec_set_list_other.
    + simpl. intros p k Hp. unfold v2. rewrite (set_at v1 m _ p k); auto; [|unfold inb; now rewrite L1].
      unfold fit. rewrite Es. destruct (dm_at_bounds m _ _ Hok Hp) as [H1 H2]. rewrite sy_nr in H1. rewrite sy_nc in H2.
      destruct p as [a b]; simpl in *. f_equal. f_equal; lia.
  - rewrite (se_orig _ _ _ Hs). simpl. rewrite HP, spy_eqb_refl.
    unfold dm_get_sp. change (dm_nr (dm_T P)) with (dm_nc P). change (dm_nc (dm_T P)) with (dm_nr P). fold (dm_nr m) (dm_nc m).
    rewrite Hr1, Hr2, sy_nr, sy_nc, Nat.eqb_refl. simpl.
    set (PT := dm_project zero (dm_T P) (dm_sp m)). set (PU := dm_project zero P (dm_sp m)).
    assert (HPT : DmOk PT) by (split; [apply Hok|simpl; now rewrite map_length]).
    assert (HPU : DmOk PU) by (split; [apply Hok|simpl; now rewrite map_length]).
    destruct (vec_set_ok zero (ps_master st) m PT Hok HPT Hib) as [[_ E1]|[Hf _]]; [|exfalso; apply Hf; right; left; reflexivity].
    rewrite E1. set (v1 := vec_set_list (ps_master st) _ _) in *. assert (L1 : length v1 = length (ps_master st)) by apply vec_set_list_length.
    simpl. destruct (vec_set_ok zero v1 m PU Hok HPU) as [[_ E2]|[Hf _]]; [unfold inb; now rewrite L1| |exfalso; apply Hf; right; left; reflexivity].
    rewrite E2. set (v2 := vec_set_list v1 _ _). assert (L2 : length v2 = length v1) by apply vec_set_list_length.
    eexists _, _. split; [reflexivity|]. split; [apply (Obj_with_master s c st v2 Ho); congruence|]. split.
    + split; simpl; [congruence|]. intros k Hk. unfold v2. rewrite vec_set_list_other by exact Hk. unfold v1. now rewrite vec_set_list_other.
    + simpl. intros p k Hp. unfold v2. rewrite (set_at v1 m _ p k); auto; [|unfold inb; now rewrite L1].
      assert (Es' : dm_is_scalar PU = false).
      { unfold dm_is_scalar in *. unfold PU, dm_nr, dm_nc. simpl. fold (dm_nr m) (dm_nc m). rewrite sy_nr, sy_nc. now rewrite Hr1, Hr2 in Es. }
      unfold fit. rewrite Es'. unfold PU, dm_nr at 1, dm_nc at 1. simpl. rewrite !Nat.eqb_refl. simpl.
      unfold dm_val at 1, dm_at. simpl. rewrite pos_assoc_fun. pose proof (dm_at_In _ _ _ Hp) as Ip. apply pos_mem_In in Ip. rewrite Ip.
      reflexivity.
Qed.
End Entry.

(** ** C26 *)
Theorem symm_read s c (st : pstate) ci e n orig :
  Obj s c st -> At s ci e -> SymmEntry e n orig ->
  exists R, getitem zero s (num_env c) (pidx ci) st = Ok (RMat R) /\ DmOk R /\ dm_shape R = (n, n) /\
    (forall a b, dm_at R (a, b) = dm_at R (b, a)) /\
    (forall a b, a <= b -> (dm_at R (a, b) <> None <-> In (a, b) (sp_pat orig))).
Proof.
  intros Ho Ha Hs. pose proof (ob_wf _ _ _ Ho) as Hw. pose proof (ob_built _ _ _ Ho) as Hc.
  destruct (map_get_leaf s c ci e Hw Hc (At_Leaf _ _ _ Ha (se_prim _ _ _ Hs))) as (m & Hm & _).
  destruct (sy_read s c ci e n orig m Hw Hc Ha Hs Hm st Ho) as (R & H1 & H2 & H3 & H4). exists R. split; [exact H1|]. split; [exact H2|]. split; [exact H3|]. split.
  { intros a b. rewrite !H4. apply mirror_sym. }
  intros a b H. split.
  - intros Hn. apply (sy_pat s c ci e n orig m Hw Hc Ha Hs Hm (a, b)). rewrite H4 in Hn. unfold mirror in Hn. simpl in Hn.
    apply Nat.leb_le in H. rewrite H in Hn. destruct (dm_at _ (a, b)) eqn:E; [|contradiction]. exact (dm_at_In _ _ _ E).
  - intros Hp. rewrite H4. unfold mirror. simpl. pose proof H as H'. apply Nat.leb_le in H. rewrite H.
    assert (Hi : In (a, b) (sp_pat (dm_sp m))) by (apply (sy_pat s c ci e n orig m Hw Hc Ha Hs Hm); auto).
    destruct (sy_ok s c ci m Hw Hc Hm) as (Hok & _). unfold vals. rewrite dm_at_map.
    destruct (dm_at_Some m (a, b) Hok Hi) as (k & ->). discriminate.
Qed.

Theorem symm_write s c (st : pstate) ci e n orig v P :
  Obj s c st -> At s ci e -> SymmEntry e n orig -> pay_ok v -> to_mtype v = Ok P -> dm_sp P = orig ->
  exists st' r R, setitem zero s (num_env c) (pidx ci) v st = (st', Ok r) /\
    getitem zero s (num_env c) (pidx ci) st' = Ok (RMat R) /\
    (forall a b, a <= b -> dm_at R (a, b) = dm_at P (a, b) /\ dm_at R (b, a) = dm_at P (a, b)) /\
    ((forall a b, dm_at P (a, b) = dm_at P (b, a)) -> R = P) /\
    (forall ii, i_get zero s (pidx ci) = Ok ii -> unchanged (positions ii) st st').
Proof.
  intros Ho Ha Hs Hv HM HP. pose proof (ob_wf _ _ _ Ho) as Hw. pose proof (ob_built _ _ _ Ho) as Hc.
  destruct (map_get_leaf s c ci e Hw Hc (At_Leaf _ _ _ Ha (se_prim _ _ _ Hs))) as (m & Hm & _).
  destruct (sy_set_full s c ci e n orig m Hw Hc Ha Hs Hm st v P Ho Hv HM HP) as (st' & r & Hset & Ho' & Hun & Hval).
  destruct (sy_read s c ci e n orig m Hw Hc Ha Hs Hm st' Ho') as (R & H1 & H2 & H3 & H4).
  destruct (sy_ok s c ci m Hw Hc Hm) as (Hok & _). pose proof (to_mtype_ok v P Hv HM) as HPok.
  assert (Hup : forall a b, a <= b -> dm_at R (a, b) = dm_at P (a, b)).
  { intros a b Hab. rewrite H4. unfold mirror. simpl. pose proof Hab as Hab'. apply Nat.leb_le in Hab'. rewrite Hab'.
    unfold vals. rewrite dm_at_map. destruct (dm_at m (a, b)) as [k|] eqn:E; simpl.
    - rewrite (Hval _ _ E). unfold dm_val. pose proof (dm_at_In _ _ _ E) as Hi. 
      apply (sy_pat s c ci e n orig m Hw Hc Ha Hs Hm) in Hi as [Hi _]. rewrite <- HP in Hi.
      destruct (dm_at_Some P (a, b) HPok Hi) as (x & ->). reflexivity.
    - destruct (dm_at P (a, b)) eqn:E2; [|reflexivity]. exfalso. apply dm_at_In in E2. rewrite HP in E2.
      assert (Hi : In (a, b) (sp_pat (dm_sp m))) by (apply (sy_pat s c ci e n orig m Hw Hc Ha Hs Hm); auto).
      destruct (dm_at_Some m (a, b) Hok Hi) as (k & E3). congruence. }
  assert (Hsy : forall a b, dm_at R (a, b) = dm_at R (b, a)) by (intros a b; rewrite !H4; apply mirror_sym).
  exists st', r, R. split; [exact Hset|]. split; [exact H1|]. split; [|split].
  - intros a b Hab. split; [auto|]. rewrite Hsy. auto.
  - intros Hps. apply dm_ext; auto.
    + unfold dm_shape in H3. injection H3 as -> _. unfold dm_nr. rewrite HP. symmetry. apply Hs.
    + unfold dm_shape in H3. injection H3 as _ ->. unfold dm_nc. rewrite HP. symmetry. apply Hs.
    + intros [a b]. destruct (Nat.le_ge_cases a b) as [Hab|Hab]; [auto|]. rewrite Hsy, Hps. auto.
  - intros ii Hii. rewrite (i_get_at zero s c ci e Hw Hc Ha), Hm in Hii. injection Hii as <-. exact Hun.
Qed.

(** Other payloads that are not scalar raise. *)
Theorem symm_write_mismatch s c (st : pstate) ci e n orig v P :
  Obj s c st -> At s ci e -> SymmEntry e n orig -> to_mtype v = Ok P -> dm_is_scalar P = false -> dm_sp P <> orig ->
  setitem zero s (num_env c) (pidx ci) v st = (st, Err EException).
Proof.
  intros Ho Ha Hs HM Hns HP. pose proof (ob_wf _ _ _ Ho) as Hw. pose proof (ob_built _ _ _ Ho) as Hc.
  destruct (map_get_leaf s c ci e Hw Hc (At_Leaf _ _ _ Ha (se_prim _ _ _ Hs))) as (m & Hm & _).
  unfold setitem. rewrite <- (app_nil_r (pidx ci)), (travS_at zero s ci e Ha Hw).
  simpl. unfold mwrap, setter, mbind, mlift. rewrite HM. simpl. rewrite Hm, (se_symm _ _ _ Hs). simpl. rewrite Hns, (se_orig _ _ _ Hs). simpl.
  destruct (spy_eqb orig (dm_sp P)) eqn:E; [|reflexivity]. apply spy_eqb_eq in E. congruence.
Qed.

(** ** C27 *)
Lemma dm_sub1_nz (d : dm nat) i j : dm_nz (dm_sub d [i] [j]) = match dm_at d (i, j) with Some k => [k] | None => [] end.
Proof. unfold dm_sub, dm_build. simpl. destruct (dm_at d (i, j)); reflexivity. Qed.

Lemma vec_set_sub1 (v : list T) d i j P : dm_is_scalar P = true -> DmOk P -> DmOk d -> inb v d ->
  vec_set zero v (dm_sub d [i] [j]) P =
  Ok (match dm_at d (i, j) with Some k => set_nth k (dm_val zero P (0, 0)) v | None => v end).
Proof.
  intros Hs HP Hd Hv. 
  assert (Hi : inb v (dm_sub d [i] [j])).
  { unfold inb in *. rewrite Forall_forall in *. intros k Hk. apply Hv. eapply dm_sub_nz; eauto. }
  destruct (vec_set_ok zero v (dm_sub d [i] [j]) P (dm_build_ok _ _ _) HP Hi) as [[_ ->]|[Hf _]].
  - f_equal. rewrite dm_sub1_nz. unfold dm_sub, dm_build. simpl. destruct (dm_at d (i, j)); simpl; [|reflexivity].
    unfold fit. rewrite Hs. reflexivity.
  - exfalso. apply Hf. left. unfold dm_is_scalar in Hs. apply andb_true_iff in Hs as [H1 H2]. apply Nat.eqb_eq in H1, H2. unfold dm_shape. congruence.
Qed.

Lemma sel_int n a i : norm_index n a = Ok i -> sel_resolve (SelInt a) n = Ok [i].
Proof. simpl. now intros ->. Qed.

Lemma nth_set_nth_eq (v : list T) k x : k < length v -> nth k (set_nth k x v) zero = x.
Proof. intros H. apply nth_error_nth. now apply nth_error_set_nth_same. Qed.
Lemma nth_set_nth_neq (v : list T) k k' x : k <> k' -> nth k' (set_nth k x v) zero = nth k' v zero.
Proof.
  intros H. change (set_nth k x v) with (vec_set_list v [k] [x]). apply set_other. simpl. intuition.
Qed.

Theorem symm_element_write s c (st : pstate) ci e n orig v P a b i j :
  Obj s c st -> At s ci e -> SymmEntry e n orig -> pay_ok v -> to_mtype v = Ok P -> dm_is_scalar P = true ->
  norm_index n a = Ok i -> norm_index n b = Ok j ->
  exists st' r R R', setitem zero s (num_env c) (pidx ci ++ [PInt a; PInt b]) v st = (st', Ok r) /\
    getitem zero s (num_env c) (pidx ci) st = Ok (RMat R) /\
    getitem zero s (num_env c) (pidx ci) st' = Ok (RMat R') /\
    (dm_at R (i, j) <> None -> dm_at R' (i, j) = Some (dm_val zero P (0, 0)) /\ dm_at R' (j, i) = Some (dm_val zero P (0, 0))) /\
    (forall p, p <> (i, j) -> p <> (j, i) -> dm_at R' p = dm_at R p) /\
    (dm_at R (i, j) = None -> R' = R) /\
    (forall ii, i_get zero s (pidx ci) = Ok ii -> unchanged (positions ii) st st').
Proof.
  intros Ho Ha Hs Hv HM Hsc Hi Hj. pose proof (ob_wf _ _ _ Ho) as Hw. pose proof (ob_built _ _ _ Ho) as Hc.
  destruct (map_get_leaf s c ci e Hw Hc (At_Leaf _ _ _ Ha (se_prim _ _ _ Hs))) as (m & Hm & _).
  destruct (sy_ok s c ci m Hw Hc Hm) as (Hok & Hnd & Hb). pose proof (to_mtype_ok v P Hv HM) as HPok.
  pose proof (sy_inb s c ci m Hw Hc Hm st Ho) as Hib. 
  set (x := dm_val zero P (0, 0)).
  set (v1 := match dm_at m (i, j) with Some k => set_nth k x (ps_master st) | None => ps_master st end).
  set (v2 := match dm_at m (j, i) with Some k => set_nth k x v1 | None => v1 end).
  assert (L1 : length v1 = length (ps_master st)) by (unfold v1; destruct (dm_at m (i, j)); [apply set_nth_length|reflexivity]).
  assert (L2 : length v2 = length (ps_master st)) by (unfold v2; destruct (dm_at m (j, i)); [rewrite set_nth_length|]; exact L1).
  assert (Hset : setitem zero s (num_env c) (pidx ci ++ [PInt a; PInt b]) v st = (with_master st v2, Ok RNone)).
  { unfold setitem. rewrite (travS_at zero s ci e Ha Hw). unfold endD, subT. rewrite (se_prim _ _ _ Hs).
    simpl ([] ++ ci). cbn [dispatch]. unfold mwrap, setter, mbind, mlift. rewrite HM. cbn [num_env en_map]. rewrite Hm.
    cbn [performExtraIndex extra delegation rbind getitem2 dsel_sel is_symm info ei_symm]. rewrite (se_symm _ _ _ Hs). unfold dm_get2.
    rewrite (sy_nr s c ci e n orig m Hw Hc Ha Hs Hm), (sy_nc s c ci e n orig m Hw Hc Ha Hs Hm), (sel_int _ _ _ Hi), (sel_int _ _ _ Hj).
    cbn [rbind rmap]. rewrite Hsc. unfold master_set. cbn [en_kind num_env].
    rewrite (vec_set_sub1 _ m i j P Hsc HPok Hok Hib). fold x. fold v1. cbn [ps_master ps_mirror ps_storage].
    rewrite (vec_set_sub1 _ m j i P Hsc HPok Hok); [|unfold inb; now rewrite L1]. reflexivity. }
  assert (Ho' : Obj s c (with_master st v2)) by (apply Obj_with_master; auto).
  destruct (sy_read s c ci e n orig m Hw Hc Ha Hs Hm st Ho) as (R & R1 & R2 & R3 & R4).
  destruct (sy_read s c ci e n orig m Hw Hc Ha Hs Hm _ Ho') as (R' & R1' & R2' & R3' & R4').
  assert (Hup : forall p, fst p <= snd p -> dm_at (vals zero v2 m) p =
       if pos_eqb p (i, j) || pos_eqb p (j, i) then option_map (fun _ => x) (dm_at m p) else dm_at (vals zero (ps_master st) m) p).
  { intros p Hp. unfold vals. rewrite !dm_at_map. destruct (dm_at m p) as [k|] eqn:Ek; [|now destruct (_ || _)]. simpl.
    assert (Hk : k < length (ps_master st)). { unfold inb in Hib. rewrite Forall_forall in Hib. apply Hib. eapply dm_at_nz; eauto. }
    destruct (pos_eqb p (i, j)) eqn:E1; simpl.
    - apply pos_eqb_eq in E1. subst p. f_equal. unfold v2, v1. rewrite Ek.
      destruct (dm_at m (j, i)) as [k'|] eqn:Ek'; [|now apply nth_set_nth_eq].
      destruct (Nat.eq_dec k' k) as [->|Hne]; [apply nth_set_nth_eq; now rewrite set_nth_length|].
      rewrite nth_set_nth_neq by exact Hne. now apply nth_set_nth_eq.
    - destruct (pos_eqb p (j, i)) eqn:E2; simpl.
      + apply pos_eqb_eq in E2. subst p. f_equal. unfold v2. rewrite Ek. apply nth_set_nth_eq. now rewrite L1.
      + f_equal. unfold v2, v1.
        assert (N1 : forall k', dm_at m (j, i) = Some k' -> k' <> k).
        { intros k' E ->. pose proof (nz_inj m _ _ _ Hok Hnd E Ek) as <-. now rewrite pos_eqb_refl in E2. }
        assert (N2 : forall k', dm_at m (i, j) = Some k' -> k' <> k).
        { intros k' E ->. pose proof (nz_inj m _ _ _ Hok Hnd E Ek) as <-. now rewrite pos_eqb_refl in E1. }
        destruct (dm_at m (j, i)) as [k'|]; [rewrite nth_set_nth_neq by auto|];
        (destruct (dm_at m (i, j)) as [k''|]; [rewrite nth_set_nth_neq by auto|]); reflexivity. }
  assert (Hall : forall p, dm_at R' p = if pos_eqb p (i, j) || pos_eqb p (j, i) then option_map (fun _ => x) (dm_at R p) else dm_at R p).
  { intros [p q]. rewrite R4, R4'. unfold mirror. simpl ps_master. simpl fst. simpl snd. destruct (p <=? q) eqn:E.
    - apply Nat.leb_le in E. rewrite Hup by exact E. destruct (_ || _); [|reflexivity]. unfold vals. rewrite dm_at_map. now destruct (dm_at m (p, q)).
    - apply Nat.leb_gt in E. rewrite Hup by (simpl; lia).
      assert (Eb : pos_eqb (q, p) (i, j) || pos_eqb (q, p) (j, i) = pos_eqb (p, q) (i, j) || pos_eqb (p, q) (j, i)).
      { unfold pos_eqb. simpl. destruct (q =? i), (p =? j), (q =? j), (p =? i); reflexivity. }
      rewrite Eb. destruct (pos_eqb (p, q) (i, j) || pos_eqb (p, q) (j, i)); [|reflexivity]. unfold vals. rewrite dm_at_map. now destruct (dm_at m (q, p)). }
  assert (Hsym : forall p q, dm_at R (p, q) = dm_at R (q, p)) by (intros; rewrite !R4; apply mirror_sym).
  exists (with_master st v2), RNone, R, R'. split; [exact Hset|]. split; [exact R1|]. split; [exact R1'|]. split; [|split; [|split]].
  - intros Hn. rewrite !Hall, !pos_eqb_refl, orb_true_r. simpl. rewrite (Hsym j i). destruct (dm_at R (i, j)); [split; reflexivity|contradiction].
  - intros p H1 H2. rewrite Hall, !pos_eqb_neq by assumption. reflexivity.
  - intros Hn. apply dm_ext; auto.
    + unfold dm_shape in *. congruence.
    + unfold dm_shape in *. congruence.
    + intros p. rewrite Hall. destruct (pos_eqb p (i, j)) eqn:E1; simpl.
      * apply pos_eqb_eq in E1. subst. now rewrite Hn.
      * destruct (pos_eqb p (j, i)) eqn:E2; [|reflexivity]. apply pos_eqb_eq in E2. subst. rewrite (Hsym j i), Hn; reflexivity.
  - intros ii Hii. rewrite (i_get_at zero s c ci e Hw Hc Ha), Hm in Hii. injection Hii as <-. split; [exact L2|]. simpl. intros k Hk.
    assert (N1 : forall k', dm_at m (j, i) = Some k' -> k' <> k) by (intros k' E ->; apply Hk; eapply dm_at_nz; eauto).
    assert (N2 : forall k', dm_at m (i, j) = Some k' -> k' <> k) by (intros k' E ->; apply Hk; eapply dm_at_nz; eauto).
    assert (G : forall (w : list T) k' y, k' <> k -> nth_error (set_nth k' y w) k = nth_error w k).
    { intros w k' y H. change (set_nth k' y w) with (vec_set_list w [k'] [y]). apply vec_set_list_other. simpl. intuition. }
    unfold v2, v1. destruct (dm_at m (j, i)) as [k'|]; [rewrite G by auto|];
        (destruct (dm_at m (i, j)) as [k''|]; [rewrite G by auto|]); reflexivity.
Qed.

(** Direct element reads: right on and above the diagonal; below it the result is
    always structurally empty. *)
Theorem symm_element_read s c (st : pstate) ci e n orig R a b i j :
  Obj s c st -> At s ci e -> SymmEntry e n orig ->
  norm_index n a = Ok i -> norm_index n b = Ok j ->
  getitem zero s (num_env c) (pidx ci) st = Ok (RMat R) ->
  exists E, getitem zero s (num_env c) (pidx ci ++ [PInt a; PInt b]) st = Ok (RMat E) /\ dm_shape E = (1, 1) /\
    dm_at E (0, 0) = if i <=? j then dm_at R (i, j) else None.
Proof.
  intros Ho Ha Hs Hi Hj HR. pose proof (ob_wf _ _ _ Ho) as Hw. pose proof (ob_built _ _ _ Ho) as Hc.
  destruct (map_get_leaf s c ci e Hw Hc (At_Leaf _ _ _ Ha (se_prim _ _ _ Hs))) as (m & Hm & _).
  destruct (sy_ok s c ci m Hw Hc Hm) as (Hok & Hnd & Hb). pose proof (sy_inb s c ci m Hw Hc Hm st Ho) as Hib.
  destruct (sy_read s c ci e n orig m Hw Hc Ha Hs Hm st Ho) as (R0 & R1 & R2 & R3 & R4). rewrite HR in R1. injection R1 as <-.
  assert (Hinb : inb (ps_master st) (dm_sub m [i] [j])).
  { unfold inb in *. rewrite Forall_forall in *. intros k Hk. apply Hib. eapply dm_sub_nz; eauto. }
  destruct (triu_ok (vals zero (ps_master st) (dm_sub m [i] [j])) 1) as (E & ER & H1 & H2 & H3).
  - apply DmOk_map, dm_build_ok.
  - reflexivity.
  - reflexivity.
  - apply Forall_forall. intros p Hp. assert (Hp' : In p (all_pos 1 1)).
    { change (In p (sp_pat (dm_sp (dm_build 1 1 (fun p => dm_at m (nth (fst p) [i] 0, nth (snd p) [j] 0)))))) in Hp.
      rewrite dm_build_pat in Hp. now apply filter_In in Hp. }
    simpl in Hp'. destruct Hp' as [<-|[]]. simpl. lia.
  - exists E. split; [|split; [exact H2|]].
    + unfold getitem. rewrite (travS_at zero s ci e Ha Hw). unfold endD, subT. rewrite (se_prim _ _ _ Hs). rewrite mwrap_snd.
      cbn [dispatch]. unfold getter. simpl ([] ++ ci). cbn [num_env en_map en_pmap extra]. rewrite Hm. unfold mbind, mlift, get_master.
      cbn [performExtraIndex delegation rbind getitem2 dsel_sel is_symm info ei_symm]. rewrite (se_symm _ _ _ Hs). unfold dm_get2.
      rewrite (sy_nr s c ci e n orig m Hw Hc Ha Hs Hm), (sy_nc s c ci e n orig m Hw Hc Ha Hs Hm), (sel_int _ _ _ Hi), (sel_int _ _ _ Hj).
      cbn [rbind rmap snd]. rewrite (vec_get_ok (ps_master st) (dm_sub m [i] [j]) eq_refl Hinb). cbn [rbind]. rewrite ER. reflexivity.
    + rewrite H3. unfold mirror. simpl. unfold vals, dm_sub. rewrite dm_at_map, dm_build_at. simpl.
      rewrite R4. unfold mirror, vals. simpl. destruct (i <=? j) eqn:Eij.
      * now rewrite dm_at_map.
      * destruct (dm_at m (i, j)) eqn:Em; [|reflexivity]. exfalso. apply dm_at_In in Em.
        apply (sy_pat s c ci e n orig m Hw Hc Ha Hs Hm) in Em as [_ Em]. simpl in Em. apply Nat.leb_gt in Eij. lia.
Qed.
End P.
