(** What [s.f] and [s[...]] return, in terms of what [s.i] returns (C76, C77). *)
From Verif Require Import PyBase IndexModel DMModel StructModel StructSpec PowerModel PowerSpec ReadSpec
  IndexProofs StructProofs LayoutProofs LayoutThms LayoutExamples DMProofs PowerProofs PowerThms SliceProofs PowerThms2 PowerThms3 SimThms.

Open Scope nat_scope.

Lemma omapM_Some {A B} (f : A -> option B) l r : omapM f l = Some r <-> Forall2 (fun a b => f a = Some b) l r.
Proof.
  revert r. induction l as [|a l IH]; intros r; simpl.
  - split; [intros [= <-]; constructor|now inversion 1].
  - split.
    + destruct (f a) as [b|] eqn:E; simpl; [|discriminate]. destruct (omapM f l) as [bs|]; simpl; [|discriminate]. intros [= <-].
      constructor; [exact E|]. now apply IH.
    + inversion 1 as [|? b ? bs H1 H2]; subst. rewrite H1. simpl. now rewrite (proj2 (IH bs) H2).
Qed.

Section P.
Context {T : Type} (zero : T).
Notation rval := (rval T).
Notation pel := (pel T).
Notation pstate := (pstate T).

(** A better induction principle for results. *)
Lemma rval_ind2 (P : rval -> Prop) :
  P (@RNone T) -> (forall m, P (RMat m)) -> (forall m, P (RIdx m)) -> (forall l, P (RFlat l)) ->
  (forall l, Forall P l -> P (RList l)) -> (forall l, Forall (fun kv => P (snd kv)) l -> P (RDict l)) -> forall r, P r.
Proof.
  intros H1 H2 H3 H4 H5 H6. fix IH 1. intros r. destruct r.
  all: try (exact H1 || apply H2 || apply H3 || apply H4).
  - apply H5. induction l as [|a l IHl]; constructor; [apply IH|exact IHl].
  - apply H6. induction l as [|a l IHl]; constructor; [apply IH|exact IHl].
Qed.

(** Maps of results given by their action on index matrices. *)
Fixpoint rtrans (g : dm nat -> option rval) (r : rval) : option rval :=
  match r with
  | RIdx m => g m
  | RList l => option_map RList (omapM (rtrans g) l)
  | RDict l => option_map RDict (omapM (fun kv => option_map (pair (fst kv)) (rtrans g (snd kv))) l)
  | _ => None
  end.

Lemma pei_idx ei flip m ex i : no_fun ex -> @performExtraIndex T ei flip (RIdx m) ex = Ok i -> exists m', i = RIdx m'.
Proof.
  assert (G1 : forall a r, getitem1 (@RIdx T m) a = Ok r -> exists m', r = RIdx m').
  { intros [s|l|] r; cbn [getitem1]; [| |discriminate]; [destruct (dm_get1 m s)|destruct (dm_get1r m l)]; simpl; try discriminate; intros [= <-]; eauto. }
  assert (G2 : forall a b r, getitem2 (@RIdx T m) a b = Ok r -> exists m', r = RIdx m').
  { intros a0 b0 r; unfold getitem2. destruct (dsel_sel a0) as [s|], (dsel_sel b0) as [t|]; try discriminate. destruct (dm_get2 m s t); simpl; [|discriminate]. intros [= <-]. eauto. }
  intros Hf. destruct ex as [|a [|b [|c ex]]].
  - intros [= <-]. eauto.
  - apply Forall_cons_iff in Hf as [Ha _]. unfold performExtraIndex.
    destruct a; try (now destruct Ha); try (intros [= <-]; eauto);
      (destruct (delegation ei 0 _) as [a'|]; cbn [rbind]; [|discriminate]; apply G1).
  - apply Forall_cons_iff in Hf as [Ha _]. unfold performExtraIndex.
    destruct a; try (now destruct Ha); try (intros [= <-]; eauto);
      (destruct (delegation ei 0 _) as [a'|]; cbn [rbind]; [|discriminate]; destruct (delegation ei 1 _) as [b'|]; cbn [rbind]; [|discriminate]; destruct flip; apply G2).
  - apply Forall_cons_iff in Hf as [Ha _]. simpl. destruct a; try (now destruct Ha); try (intros [= <-]; eauto); discriminate.
Qed.

(** ** [s.f] *)
Definition gflat (m : dm nat) : option rval := if sp_is_dense (dm_sp m) then Some (RFlat (dm_nz m)) else None.

Lemma flat_disp en st1 st2 ci ex ei : no_fun (extra ex) ->
  ok (snd (dispatch zero en MFlat PayNone ci ex ei st2)) = obind (rtrans gflat) (ok (snd (dispatch zero en MIM PayNone ci ex ei st1))).
Proof.
  intros Hf. simpl. unfold flatget, imget. destruct (cmap_get ci (en_map en)) as [m|]; [|reflexivity]. cbn [rbind].
  destruct (performExtraIndex ei false (RIdx m) (extra ex)) as [i|] eqn:E; [|reflexivity].
  apply pei_idx in E as (m' & ->); [|exact Hf]. simpl. unfold gflat, rassert. destruct (sp_is_dense (dm_sp m')); reflexivity.
Qed.

Lemma Good_True s : @Good T zero (fun _ => True) s.
Proof. induction s as [es order IH] using structure_ind2. constructor; eauto. Qed.

Lemma f_of_i s c pi : casadi_structure s = Ok c -> no_fun pi ->
  ok (f_get zero s pi) = obind (fun r => obind (fun R => ok (vec_ R)) (rtrans gflat r)) (ok (i_get zero s pi)).
Proof.
  intros Hc Hf. unfold f_get, i_get, index_getter. rewrite Hc. cbn [rbind].
  pose proof (sim_travS zero MIM MFlat eq_refl eq_refl (@empty_state T) (@empty_state T) (Env (cs_map c) [] KPlain []) (rtrans gflat)
    (fun _ => eq_refl) (fun _ => eq_refl) (fun _ => True) I (fun ci ex ei _ H => flat_disp _ _ _ ci ex ei H) s (Good_True s) pi [] Hf) as H.
  unfold sim in H. destruct (snd (travS zero s _ MIM pi [] PayNone _)) as [r|], (snd (travS zero s _ MFlat pi [] PayNone _)) as [R|]; simpl in *;
    rewrite <- ?H; try reflexivity; discriminate.
Qed.

Lemma dense_iff m : sp_is_dense (dm_sp m) = true <-> @AllDense T (RIdx m).
Proof. unfold sp_is_dense. rewrite Nat.eqb_eq. split; [now constructor|now inversion 1]. Qed.

Lemma listy_flat r : Listy r -> AllDense r -> exists R, rtrans gflat r = Some R /\ vec_ R = Ok (RFlat (positions r)) /\ is_list R = true.
Proof.
  induction r as [| | | |l IH|l IH] using rval_ind2; intros HL HD; inversion HL; subst; inversion HD; subst.
  - simpl. unfold gflat. rewrite (proj2 (dense_iff m) HD). eauto.
  - simpl rtrans.
    assert (G : exists L, omapM (rtrans gflat) l = Some L /\
       Forall2 (fun r R => vec_ R = Ok (RFlat (positions r)) /\ is_list R = true) l L).
    { clear HL HD. induction l as [|a l IHl]; [exists []; split; [reflexivity|constructor]|].
      apply Forall_cons_iff in IH as [Ha IH]. apply Forall_cons_iff in H0 as [La Ll]. apply Forall_cons_iff in H1 as [Da Dl].
      destruct (Ha La Da) as (R & E1 & E2 & E3). destruct (IHl IH Ll Dl) as (L & E4 & E5).
      exists (R :: L). simpl. rewrite E1, E4. split; [reflexivity|]. constructor; auto. }
    destruct G as (L & -> & F). exists (RList L). split; [reflexivity|]. split; [|reflexivity].
    clear -F. inversion F as [|r0 R0 l' L' H0 F']; subst; [reflexivity|].
    assert (E : existsb is_list (R0 :: L') = true) by (simpl; now rewrite (proj2 H0)).
    clear H0 F'. revert E F. generalize (r0 :: l') as l, (R0 :: L') as L. clear. intros l L E F. cbn [vec_]. rewrite E. clear E.
    induction F as [|r R l L [H1 _] F IH]; [reflexivity|]. rewrite H1. cbn [rbind]. rewrite IH. reflexivity.
Qed.

Lemma flat_inv r : forall R l, rtrans gflat r = Some R -> vec_ R = Ok (RFlat l) -> Listy r /\ AllDense r /\ positions r = l.
Proof.
  induction r as [| |m|fl|rs IH|rs IH] using rval_ind2; intros R l E V; simpl in E; try discriminate.
  - unfold gflat in E. destruct (sp_is_dense (dm_sp m)) eqn:D; [|discriminate]. injection E as <-. simpl in V. injection V as <-.
    split; [constructor|]. split; [|reflexivity]. now apply dense_iff.
  - destruct (omapM (rtrans gflat) rs) as [Rs|] eqn:E1; [|discriminate]. injection E as <-. apply omapM_Some in E1. cbn [vec_] in V.
    destruct (existsb is_list Rs) eqn:Ex.
    + clear Ex. assert (G : Forall Listy rs /\ Forall AllDense rs /\ flat_map positions rs = l).
      { revert l V. induction E1 as [|r R rs Rs H F IHF]; intros l V; [injection V as <-; repeat split; constructor|].
        apply Forall_cons_iff in IH as [Hr IH]. destruct (vec_ R) as [y|] eqn:Ey; cbn [rbind] in V; [|discriminate].
        match type of V with rbind ?g _ = _ => destruct g as [ys|] eqn:Eys; cbn [rbind] in V; [|discriminate] end.
        destruct y as [| | |a| |]; try discriminate. destruct ys as [| | |b| |]; try discriminate. injection V as <-.
        destruct (Hr _ _ H Ey) as (A1 & A2 & A3). destruct (IHF IH _ eq_refl) as (B1 & B2 & B3).
        repeat split; try (constructor; assumption). simpl. now rewrite A3, B3. }
      destruct G as (A & B & C). repeat split; [now constructor|now constructor|exact C].
    + destruct Rs as [|R0 Rs]; [|discriminate]. inversion E1; subst. injection V as <-. repeat split; constructor; constructor.
  - destruct (omapM _ rs) as [Rs|]; [|discriminate]. injection E as <-. discriminate.
Qed.

(** C76 *)
Theorem f_lists_positions s c pi l : casadi_structure s = Ok c -> no_fun pi ->
  (f_get zero s pi = Ok (RFlat l) <-> exists r, i_get zero s pi = Ok r /\ Listy r /\ AllDense r /\ l = positions r).
Proof.
  intros Hc Hf. pose proof (f_of_i s c pi Hc Hf) as E. split.
  - intros H. rewrite H in E. destruct (i_get zero s pi) as [r|]; simpl in E; [|discriminate]. exists r. split; [reflexivity|].
    destruct (rtrans gflat r) as [R|] eqn:ER; simpl in E; [|discriminate].
    destruct (vec_ R) as [x|] eqn:EV; simpl in E; [|discriminate]. injection E as <-.
    destruct (flat_inv r R l ER EV) as (A & B & C). auto.
  - intros (r & Hr & HL & HD & ->). rewrite Hr in E. simpl in E. destruct (listy_flat r HL HD) as (R & E1 & E2 & _). rewrite E1 in E. simpl in E. rewrite E2 in E.
    now apply ok_Some.
Qed.

Lemma rtrans_dense r : forall R, rtrans gflat r = Some R -> AllDense r.
Proof.
  induction r as [| |m|fl|rs IH|rs IH] using rval_ind2; intros R E; simpl in E; try discriminate.
  - unfold gflat in E. destruct (sp_is_dense (dm_sp m)) eqn:D; [|discriminate]. now apply dense_iff.
  - destruct (omapM _ rs) as [Rs|] eqn:E1; [|discriminate]. apply omapM_Some in E1. constructor. clear E. revert IH.
    induction E1 as [|r R' rs Rs H F IHF]; intros IH; [constructor|]. apply Forall_cons_iff in IH as [Hr IH]. constructor; eauto.
  - destruct (omapM _ rs) as [Rs|] eqn:E1; [|discriminate]. apply omapM_Some in E1. constructor. clear E. revert IH.
    induction E1 as [|r R' rs Rs H F IHF]; intros IH; [constructor|]. apply Forall_cons_iff in IH as [Hr IH]. constructor; [|auto].
    destruct (rtrans gflat (snd r)) eqn:Er; [|discriminate]. eauto.
Qed.

Theorem f_needs_dense s c pi R : casadi_structure s = Ok c -> no_fun pi -> f_get zero s pi = Ok R ->
  exists r, i_get zero s pi = Ok r /\ AllDense r.
Proof.
  intros Hc Hf H. pose proof (f_of_i s c pi Hc Hf) as E. rewrite H in E. destruct (i_get zero s pi) as [r|]; simpl in E; [|discriminate].
  exists r. split; [reflexivity|]. destruct (rtrans gflat r) eqn:ER; [|discriminate]. eapply rtrans_dense; eauto.
Qed.

(** ** [s[...]] *)
Definition gval (v : list T) (m : dm nat) : option rval :=
  if forallb (fun k => k <? length v) (dm_nz m) then Some (RMat (vals zero v m)) else None.

Lemma good_NoSymm s : NoSymm s -> Good zero (fun ei => is_symm ei = false) s.
Proof.
  induction 1 as [es order H1 H2 IH]. constructor; [|exact IH]. intros e He. rewrite <- (H1 e He). reflexivity.
Qed.

Lemma val_disp g s c (st : pstate) st1 ci ex ei : Obj s c st -> is_symm ei = false -> no_fun (extra ex) ->
  (forall m, inb (ps_master st) m -> g m = Some (RMat (vals zero (ps_master st) m))) ->
  ok (snd (dispatch zero (num_env c) MGet PayNone ci ex ei st)) =
  obind (rtrans g) (ok (snd (dispatch zero (num_env c) MIM PayNone ci ex ei st1))).
Proof.
  intros [Hw Hc Hlen] Hs Hf Hg. cbn [dispatch]. unfold getter, imget, num_env. cbn [en_map en_pmap].
  destruct (cmap_get ci (cs_map c)) as [m|] eqn:Em; [|reflexivity].
  destruct (map_ok s c ci m Hw Hc Em) as (_ & Hm & _ & Hb & _).
  assert (G : ok (snd ((i <- mlift (performExtraIndex ei false (RIdx m) (extra ex)) ;;
       match i with
       | RIdx i => v <- get_master ;;
           if is_symm ei then mlift (let* r := vec_get v i in rmap RMat (dm_triu2symm r)) else mlift (rmap RMat (correct_vector_indexing v i))
       | _ => merr EException end) st)) = obind (rtrans g) (ok (performExtraIndex ei false (RIdx m) (extra ex)))).
  { destruct (performExtraIndex ei false (RIdx m) (extra ex)) as [i|] eqn:E; [|reflexivity].
    apply pei_ok in E as (m' & -> & [Hsp _] & Hi); [|exact Hm|eapply Forall_impl; [|exact Hf]; intros a; destruct a; auto].
    assert (Hin : inb (ps_master st) m') by (unfold inb; rewrite Hlen; rewrite Forall_forall in *; auto).
    unfold mbind, mlift, get_master. rewrite Hs. cbn [snd]. unfold correct_vector_indexing. rewrite (cvi_ok zero _ _ Hsp Hin). simpl. now rewrite Hg. }
  destruct (extra ex); exact G.
Qed.

Lemma get_of_i g s c (st : pstate) pi : Obj s c st -> NoSymm s -> no_fun pi ->
  (forall m, inb (ps_master st) m -> g m = Some (RMat (vals zero (ps_master st) m))) ->
  ok (getitem zero s (num_env c) pi st) = obind (rtrans g) (ok (i_get zero s pi)).
Proof.
  intros Ho Hns Hf Hg. unfold getitem, i_get, index_getter. rewrite (ob_built _ _ _ Ho). cbn [rbind].
  pose proof (sim_travS zero MIM MGet eq_refl eq_refl (@empty_state T) st (num_env c) (rtrans g)
    (fun _ => eq_refl) (fun _ => eq_refl) (fun ei => is_symm ei = false) eq_refl (fun ci ex ei Hs H => val_disp g s c st _ ci ex ei Ho Hs H Hg) s (good_NoSymm s Hns) pi [] Hf) as H.
  unfold sim in H. rewrite H. unfold num_env. destruct (snd (travS zero s _ MIM pi [] PayNone _)); reflexivity.
Qed.

Lemma gval_in v m : inb v m -> gval v m = Some (RMat (vals zero v m)).
Proof.
  intros H. unfold gval. replace (forallb _ _) with true; [reflexivity|]. symmetry. apply forallb_forall. intros k Hk. apply Nat.ltb_lt.
  unfold inb in H. rewrite Forall_forall in H. auto.
Qed.

Lemma vals_Forall2 (v : list T) l : Forall (fun k => k < length v) l -> Forall2 (fun k x => nth_error v k = Some x) l (map (fun k => nth k v zero) l).
Proof. induction 1; simpl; constructor; auto. now apply nth_error_nth'. Qed.
Lemma Forall2_vals (v : list T) l nz : Forall2 (fun k x => nth_error v k = Some x) l nz -> Forall (fun k => k < length v) l /\ nz = map (fun k => nth k v zero) l.
Proof.
  induction 1 as [|k x l nz H F [IH ->]]; [split; constructor|]. split; [constructor; [eapply nth_error_Some_lt_; eauto|exact IH]|].
  simpl. f_equal. symmetry. now apply nth_error_nth.
Qed.

Lemma Values_rtrans v r : forall R, rtrans (gval v) r = Some R <-> Values v r R.
Proof.
  induction r as [| |m|fl|rs IH|rs IH] using rval_ind2; intros R; simpl; try (split; [discriminate|now inversion 1]).
  - split.
    + unfold gval. destruct (forallb _ _) eqn:E; [|discriminate]. intros [= <-]. unfold vals, dm_map. constructor. apply vals_Forall2.
      apply Forall_forall. intros k Hk. rewrite forallb_forall in E. now apply Nat.ltb_lt, E.
    + inversion 1 as [m' nz F| |]; subst. apply Forall2_vals in F as [Hb ->]. now rewrite gval_in.
  - split.
    + destruct (omapM _ rs) as [Rs|] eqn:E; [|discriminate]. intros [= <-]. constructor. apply omapM_Some in E. revert IH.
      induction E; intros IH; constructor; apply Forall_cons_iff in IH as [H1 H2]; [now apply H1|auto].
    + inversion 1 as [|l' L F|]; subst. replace (omapM (rtrans (gval v)) rs) with (Some L); [reflexivity|]. symmetry. apply omapM_Some.
      clear H. revert IH. induction F; intros IH; constructor; apply Forall_cons_iff in IH as [H1 H2]; [now apply H1|auto].
  - split.
    + destruct (omapM _ rs) as [Rs|] eqn:E; [|discriminate]. intros [= <-]. constructor. apply omapM_Some in E. revert IH.
      induction E as [|[k x] [k' y] l l' H0]; intros IH; constructor; apply Forall_cons_iff in IH as [H1 H2]; [|auto].
      simpl in *. destruct (rtrans (gval v) x) eqn:Ex; [|discriminate]. injection H0 as <- <-. split; [reflexivity|]. now apply H1.
    + inversion 1 as [| |l' L F]; subst.
      replace (omapM (fun kv => option_map (pair (fst kv)) (rtrans (gval v) (snd kv))) rs) with (Some L); [reflexivity|]. symmetry. apply omapM_Some.
      clear H. revert IH. induction F as [|[k x] [k' y] l l' [Hk Hv]]; intros IH; constructor; apply Forall_cons_iff in IH as [H1 H2]; [|auto].
      simpl in *. subst k'. now rewrite (proj2 (H1 y) Hv).
Qed.

(** C77 *)
Theorem getitem_values s c (st : pstate) pi R : Obj s c st -> NoSymm s -> no_fun pi ->
  (getitem zero s (num_env c) pi st = Ok R <-> exists r, i_get zero s pi = Ok r /\ Values (ps_master st) r R).
Proof.
  intros Ho Hns Hf. pose proof (get_of_i (gval (ps_master st)) s c st pi Ho Hns Hf (gval_in _)) as E. split.
  - intros H. rewrite H in E. destruct (i_get zero s pi) as [r|]; simpl in E; [|discriminate]. exists r. split; [reflexivity|]. now apply Values_rtrans.
  - intros (r & Hr & HV). rewrite Hr in E. simpl in E. rewrite (proj2 (Values_rtrans _ _ _) HV) in E. now apply ok_Some.
Qed.

(** Every index that [s.i] accepts can be read. *)
Definition gin (n : nat) (m : dm nat) : option rval := if forallb (fun k => k <? n) (dm_nz m) then Some (RIdx m) else None.

Lemma in_disp s c st1 ci ex ei : Wf s -> casadi_structure s = Ok c -> no_fun (extra ex) ->
  ok (snd (dispatch zero (num_env c) MIM PayNone ci ex ei st1)) =
  obind (rtrans (gin (cs_size c))) (ok (snd (dispatch zero (num_env c) MIM PayNone ci ex ei st1))).
Proof.
  intros Hw Hc Hf. cbn [dispatch]. unfold imget, num_env. cbn [en_map].
  destruct (cmap_get ci (cs_map c)) as [m|] eqn:Em; [|reflexivity].
  destruct (map_ok s c ci m Hw Hc Em) as (_ & Hm & _ & Hb & _). simpl.
  destruct (performExtraIndex ei false (RIdx m) (extra ex)) as [i|] eqn:E; [|reflexivity].
  apply pei_ok in E as (m' & -> & _ & Hi); [|exact Hm|eapply Forall_impl; [|exact Hf]; intros a; destruct a; auto].
  simpl. unfold gin. replace (forallb _ _) with true; [reflexivity|]. symmetry. apply forallb_forall. intros k Hk. apply Nat.ltb_lt.
  rewrite Forall_forall in Hb. auto.
Qed.

Lemma i_get_in s c pi r : Wf s -> casadi_structure s = Ok c -> no_fun pi -> i_get zero s pi = Ok r -> rtrans (gin (cs_size c)) r = Some r.
Proof.
  intros Hw Hc Hf Hr. destruct (i_get_run zero s c pi r Hc Hr) as (sg & E).
  pose proof (sim_travS zero MIM MIM eq_refl eq_refl (@empty_state T) (@empty_state T) (num_env c) (rtrans (gin (cs_size c)))
    (fun _ => eq_refl) (fun _ => eq_refl) (fun _ => True) I (fun ci ex ei _ H => in_disp s c _ ci ex ei Hw Hc H) s (Good_True s) pi [] Hf) as H.
  unfold sim in H. rewrite E in H. simpl in H. congruence.
Qed.

Lemma rtrans_mono g g' r : (forall m x, g m = Some x -> exists y, g' m = Some y) -> forall R, rtrans g r = Some R -> exists R', rtrans g' r = Some R'.
Proof.
  intros Hg. induction r as [| |m|fl|rs IH|rs IH] using rval_ind2; intros R E; simpl in *; try discriminate; [eauto|..].
  - destruct (omapM (rtrans g) rs) as [Rs|] eqn:E1; [|discriminate]. clear E. apply omapM_Some in E1.
    assert (G : exists L, omapM (rtrans g') rs = Some L) by (induction E1 as [|a b l l' H F IHF]; [simpl; eauto|];
      apply Forall_cons_iff in IH as [Ha IH]; destruct (Ha _ H) as (y & Ey), (IHF IH) as (L & EL); simpl; rewrite Ey, EL; simpl; eauto).
    destruct G as (L & ->). simpl. eauto.
  - destruct (omapM _ rs) as [Rs|] eqn:E1; [|discriminate]. clear E. apply omapM_Some in E1.
    assert (G : exists L, omapM (fun kv => option_map (pair (fst kv)) (rtrans g' (snd kv))) rs = Some L).
    { induction E1 as [|a b l l' H F IHF]; [simpl; eauto|]. apply Forall_cons_iff in IH as [Ha IH].
      destruct (rtrans g (snd a)) as [x|] eqn:Ex; [|discriminate]. destruct (Ha _ eq_refl) as (y & Ey), (IHF IH) as (L & EL). simpl. rewrite Ey, EL. simpl. eauto. }
    destruct G as (L & ->). simpl. eauto.
Qed.

Theorem getitem_defined s c (st : pstate) pi r : Obj s c st -> NoSymm s -> no_fun pi -> i_get zero s pi = Ok r ->
  exists R, getitem zero s (num_env c) pi st = Ok R /\ Values (ps_master st) r R.
Proof.
  intros Ho Hns Hf Hr. pose proof (i_get_in s c pi r (ob_wf _ _ _ Ho) (ob_built _ _ _ Ho) Hf Hr) as Hin.
  apply (rtrans_mono _ (gval (ps_master st))) in Hin as (R & ER).
  - exists R. apply Values_rtrans in ER. split; [|exact ER]. apply getitem_values; eauto.
  - intros m x Hx. unfold gin in Hx. unfold gval. rewrite (ob_len _ _ _ Ho). destruct (forallb _ _); [eauto|discriminate].
Qed.

End P.
