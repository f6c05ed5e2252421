(** Assignments of nested values (C101). *)
From Coq Require Import Permutation.
From Verif Require Import PyBase IndexModel DMModel StructModel StructSpec PowerModel PowerSpec
  IndexProofs StructProofs LayoutProofs LayoutThms LayoutExamples DMProofs PowerProofs PowerThms SliceProofs PowerThms2 PowerThms3 PowerThms4 SimThms ReadSpec ReadThms AssignSpec.
Open Scope list_scope. Open Scope nat_scope.

Section P.
Context {T : Type} (zero : T).
Notation rval := (rval T).
Notation pel := (pel T).
Notation pay := (pay T).
Notation env := (env T).
Notation einfo := (einfo T).
Notation pstate := (pstate T).
Notation clos := (@clos T).
Notation Receives := (Receives zero).

(** ** Lists *)
Lemma Forall2_of_combine {A B} (P : A -> B -> Prop) l l' : length l = length l' -> (forall a b, In (a, b) (List.combine l l') -> P a b) -> Forall2 P l l'.
Proof. revert l'. induction l as [|a l IH]; intros [|b l'] Hl H; try discriminate; constructor; [apply H; now left|]. apply IH; [now injection Hl|]. intros; apply H; now right. Qed.
Lemma Forall2_combine {A B} (P : A -> B -> Prop) l l' a b : Forall2 P l l' -> In (a, b) (List.combine l l') -> P a b.
Proof. induction 1; simpl; [tauto|]. intros [[= <- <-]|H1]; auto. Qed.
Lemma Forall2_len {A B} (P : A -> B -> Prop) l l' : Forall2 P l l' -> length l = length l'.
Proof. induction 1; simpl; congruence. Qed.
Lemma Forall_exists2 {A B} (P : A -> B -> Prop) l : (forall a, In a l -> exists b, P a b) -> exists l', Forall2 P l l'.
Proof. induction l as [|a l IH]; intros H; [exists []; constructor|]. destruct (H a (or_introl eq_refl)) as (b & Hb). destruct IH as (l' & Hl'); [intros; apply H; now right|]. exists (b :: l'). now constructor. Qed.
Lemma NoDup_app_first {A} (l l' : list A) : NoDup (l ++ l') -> NoDup l.
Proof. induction l as [|a l IH]; simpl; intros H; constructor; apply NoDup_cons_iff in H as [H1 H2]; [rewrite in_app_iff in H1; tauto|auto]. Qed.
Lemma flat_map_disj {A B} (g : A -> list B) l y y' x : NoDup (flat_map g l) -> In y l -> In y' l -> y <> y' -> In x (g y) -> In x (g y') -> False.
Proof.
  induction l as [|a l IH]; simpl; [tauto|]. intros Hn Hy Hy' Hne Hx Hx'. 
  assert (D : forall z, In z l -> In x (g a) -> In x (g z) -> False) by (intros z Hz Ha Hzx; apply (proj1 (NoDup_app_disj _ _ Hn) x Ha); apply in_flat_map; eauto).
  destruct Hy as [<-|Hy], Hy' as [<-|Hy']; [contradiction|eapply (D y'); eauto|eapply (D y); eauto|]. apply (IH (proj2 (NoDup_app_disj _ _ Hn))); auto.
Qed.
Lemma flat_map_part {A B} (g : A -> list B) l y : NoDup (flat_map g l) -> In y l -> NoDup (g y).
Proof. induction l as [|a l IH]; simpl; [tauto|]. intros Hn [<-|H]; [eapply NoDup_app_first; eauto|]. apply IH; [now apply NoDup_app_disj in Hn|exact H]. Qed.
Lemma flat_map_sub {A B} (g : A -> list B) l ys : NoDup (flat_map g l) -> NoDup ys -> incl ys l -> NoDup (flat_map g ys).
Proof.
  intros Hn. induction ys as [|y ys IH]; intros Hd Hi; simpl; [constructor|]. apply NoDup_cons_iff in Hd as [Hy Hd]. apply NoDup_app_intro_; [eapply flat_map_part; eauto; apply Hi; now left|apply IH; [exact Hd|intros z Hz; apply Hi; now right]|].
  intros x Hx H. apply in_flat_map in H as (z & Hz & Hxz). apply (flat_map_disj g l y z x Hn); auto; [apply Hi; now left|apply Hi; now right|]. intros ->. contradiction.
Qed.

(** ** What [Receives] depends on *)
Lemma Values_agree (v v' : list T) r R : (forall k, In k (positions r) -> nth_error v' k = nth_error v k) -> Values v r R -> Values v' r R.
Proof.
  revert R. induction r as [| |m|fl|rs IH|rs IH] using rval_ind2; intros R Ha H; inversion H as [m' nz F|l L F|l L F]; subst; constructor.
  - simpl in Ha. clear H. revert Ha. induction F as [|k x ks xs Hk F IHF]; intros Ha; constructor; [rewrite Ha; [exact Hk|now left]|apply IHF; intros; apply Ha; now right].
  - simpl in Ha. clear H. revert IH Ha. induction F as [|a b l l' Hab F IHF]; intros IH Ha; constructor; apply Forall_cons_iff in IH as [I1 I2]; [apply I1; [|exact Hab]|apply IHF; [exact I2|]]; intros k Hk; apply Ha; simpl; apply in_or_app; auto.
  - simpl in Ha. clear H. revert IH Ha. induction F as [|a b l l' [Hf Hab] F IHF]; intros IH Ha; constructor; apply Forall_cons_iff in IH as [I1 I2]; [split; [exact Hf|]; apply I1; [|exact Hab]|apply IHF; [exact I2|]]; intros k Hk; apply Ha; simpl; apply in_or_app; auto.
Qed.

Lemma Receives_agree v v' r : forall p R, (forall k, In k (positions r) -> nth_error v' k = nth_error v k) -> Receives v r p R -> Receives v' r p R.
Proof.
  induction r as [| |m|fl|rs IH|rs IH] using rval_ind2; intros p R Ha H; inversion H as [m' p' M H1 H2 H3|l p' L F|l kv L Hn Hk F|l p' L Hp F]; subst.
  - now constructor.
  - constructor. clear H. apply Forall2_of_combine; [eapply Forall2_len; eauto|]. intros [j r] R0 Hin. pose proof (Forall2_combine _ _ _ _ _ F Hin) as (q & Hq & Hr). cbn [fst snd] in *. exists q. split; [exact Hq|].
    assert (Hrs : In r rs) by (apply in_combine_l in Hin; now apply in_combine_r in Hin). rewrite Forall_forall in IH. apply (IH r Hrs); [|exact Hr]. intros k Hk. apply Ha. simpl. apply in_flat_map. eauto.
  - constructor; auto. clear H. apply Forall2_of_combine; [eapply Forall2_len; eauto|]. intros a b Hin. pose proof (Forall2_combine _ _ _ _ _ F Hin) as (Hf & Hc). split; [exact Hf|].
    apply in_combine_l in Hin. rewrite Forall_forall in IH. assert (Ha' : forall k, In k (positions (snd a)) -> nth_error v' k = nth_error v k) by (intros k Hk'; apply Ha; simpl; apply in_flat_map; eauto).
    destruct Hc as [(q & Hq & Hr)|[Hq Hr]]; [left; exists q; split; [exact Hq|]; now apply (IH a Hin)|right; split; [exact Hq|]; eapply Values_agree; eauto].
  - apply Rc_all; [exact Hp|]. clear H. apply Forall2_of_combine; [eapply Forall2_len; eauto|]. intros a b Hin. pose proof (Forall2_combine _ _ _ _ _ F Hin) as (Hf & Hr). split; [exact Hf|].
    apply in_combine_l in Hin. rewrite Forall_forall in IH. apply (IH a Hin); [|exact Hr]. intros k Hk'; apply Ha; simpl; apply in_flat_map; eauto.
Qed.

(** ** One index, one right-hand side *)
(** The index matrices are proper and dicts have every key once. *)
Inductive RvOk : rval -> Prop :=
| Ro_idx : forall m, DmOk m -> RvOk (RIdx m)
| Ro_list : forall l, Forall RvOk l -> RvOk (RList l)
| Ro_dict : forall l, NoDup (map fst l) -> Forall (fun kv => RvOk (snd kv)) l -> RvOk (RDict l).

Definition Wrote (r R : rval) (st st' : pstate) : Prop :=
  st' = with_master st (ps_master st') /\ unchanged (positions r) st st' /\ Values (ps_master st') r R.

Definition below (n : nat) (r : rval) : Prop := forall k, In k (positions r) -> k < n.

Definition fw (im : @M T rval) (wr : pay -> @M T rval) : Prop :=
  forall sg r, snd (im sg) = Ok r -> RvOk r /\
   forall p R st, NoDup (positions r) -> below (length (ps_master st)) r -> Receives (ps_master st) r p R ->
     exists st' x, wr p st = (st', Ok x) /\ Wrote r R st st'.

Lemma fw_wrap im wr : fw im wr -> fw (mwrap im) (fun p => mwrap (wr p)).
Proof.
  intros H sg r Hr. rewrite mwrap_snd in Hr. destruct (snd (im sg)) as [x|] eqn:E; [|discriminate]. injection Hr as ->.
  destruct (H sg r E) as (Ho & Hw). split; [exact Ho|]. intros p R st Hn Hb HR. destruct (Hw p R st Hn Hb HR) as (st' & x & E' & HW). exists st', x. split; [|exact HW]. unfold mwrap. now rewrite E'.
Qed.

Lemma fw_ext im im' wr wr' : (forall sg, im sg = im' sg) -> (forall p st, wr p st = wr' p st) -> fw im wr -> fw im' wr'.
Proof.
  intros E1 E2 H sg r Hr. rewrite <- E1 in Hr. destruct (H sg r Hr) as (Ho & Hw). split; [exact Ho|]. intros p R st Hn Hb HR. rewrite <- E2. now apply Hw.
Qed.

Lemma fw_dispatch en ci ex ei : env_ok en -> is_symm ei = false ->
  Forall (fun p => match p with PFun _ => False | _ => True end) (extra ex) ->
  fw (dispatch zero en MIM PayNone ci ex ei) (fun p => dispatch zero en MSet p ci ex ei).
Proof.
  intros (Hp & Hk & Hok) Hs Hex sg r. cbn [dispatch]. unfold mlift, imget. simpl. destruct (cmap_get ci (en_map en)) as [mi|] eqn:Em; [|discriminate].
  intros E. destruct (pei_ok _ _ _ _ _ (Hok _ _ Em) Hex E) as (m & -> & Hm & _). split; [now constructor|].
  intros p R st Hn Hb HR. inversion HR as [m' p' M H1 H2 H3| | |]; subst. unfold setter, mbind, mlift. rewrite H2, Em, E, Hs. unfold master_set. rewrite Hk.
  assert (Hin : inb (ps_master st) m) by (apply Forall_forall; exact Hb).
  destruct (vec_set_ok zero (ps_master st) m M Hm (to_mtype_ok p M H1 H2) Hin) as [[Hf ->]|[Hf _]]; [|contradiction].
  eexists. exists RNone. split; [reflexivity|]. split; [reflexivity|]. cbn [ps_master positions]. split.
  - split; cbn [ps_master]; [apply vec_set_list_length|]. intros k Hk'. now apply vec_set_list_other.
  - constructor. cbn [positions] in Hn. pose proof (vec_set_list_vals zero (dm_nz m) (ps_master st) (map (fit zero M (dm_sp m)) (sp_pat (dm_sp m))) Hn Hin) as E'.
    match type of E' with _ -> map _ ?ks = ?xs => pose proof (vals_Forall2 zero (vec_set_list (ps_master st) ks xs) ks) as G end.
    rewrite E' in G by (rewrite map_length; symmetry; apply Hm). apply G. rewrite vec_set_list_length. exact Hin.
Qed.

(** ** Loops over disjoint parts *)
Definition tposs {A} (tr : list (A * (rval * rval))) : list nat := flat_map (fun t => positions (fst (snd t))) tr.

Lemma fw_loop {A B} (g : A -> @M T B) (tr : list (A * (rval * rval))) : forall st,
  (forall a r R st1, In (a, (r, R)) tr -> length (ps_master st1) = length (ps_master st) ->
     (forall k, In k (positions r) -> nth_error (ps_master st1) k = nth_error (ps_master st) k) ->
     exists st' x, g a st1 = (st', Ok x) /\ Wrote r R st1 st') ->
  NoDup (tposs tr) ->
  exists st' xs, mmapM g (map fst tr) st = (st', Ok xs) /\ st' = with_master st (ps_master st') /\ unchanged (tposs tr) st st' /\
    forall a r R, In (a, (r, R)) tr -> Values (ps_master st') r R.
Proof.
  induction tr as [|[a [r R]] tr IH]; intros st Hg Hn.
  - exists st, []. split; [reflexivity|]. split; [now destruct st|]. split; [apply unchanged_refl|]. intros ? ? ? [].
  - unfold tposs in Hn. cbn [flat_map snd fst] in Hn. destruct (Hg a r R st (or_introl eq_refl) eq_refl (fun _ _ => eq_refl)) as (st1 & x & E1 & (W1 & [L1 U1] & V1)).
    destruct (NoDup_app_disj _ _ Hn) as (Hd & Hn').
    destruct (IH st1) as (st' & xs & E2 & W2 & [L2 U2] & V2); [|exact Hn'|].
    + intros a0 r0 R0 st0 Hin Hl Ha. apply (Hg a0 r0 R0 st0); [now right|congruence|]. intros k Hk. rewrite Ha by exact Hk. apply U1. intros Hk'. apply (Hd k Hk'). apply in_flat_map. exists (a0, (r0, R0)). auto.
    + exists st', (x :: xs). cbn [map fst mmapM]. unfold mbind. rewrite E1, E2. split; [reflexivity|]. split; [rewrite W2, W1; reflexivity|]. split; [split; [congruence|]|].
      * intros k Hk. unfold tposs in Hk. cbn [flat_map snd fst] in Hk. rewrite in_app_iff in Hk. rewrite U2, U1 by tauto. reflexivity.
      * intros a0 r0 R0 [[= <- <- <-]|Hin]; [|eauto]. apply (Values_agree (ps_master st1)); [|exact V1]. intros k Hk. apply U2. intros Hk'. exact (Hd k Hk Hk').
Qed.

Lemma combine_fst {A B} (l : list A) (l' : list B) : length l = length l' -> map fst (List.combine l l') = l.
Proof. revert l'. induction l as [|a l IH]; intros [|b l'] H; try discriminate; [reflexivity|]. simpl. f_equal. apply IH. now injection H. Qed.
Lemma combine_snd {A B} (l : list A) (l' : list B) : length l = length l' -> map snd (List.combine l l') = l'.
Proof. revert l'. induction l as [|a l IH]; intros [|b l'] H; try discriminate; [reflexivity|]. simpl. f_equal. apply IH. now injection H. Qed.
Lemma flat_map_map_ {A B C} (f : A -> B) (g : B -> list C) l : flat_map g (map f l) = flat_map (fun a => g (f a)) l.
Proof. induction l; simpl; congruence. Qed.
Lemma combine_nth_error {A B} (l : list A) (l' : list B) j a b : nth_error (List.combine l l') j = Some (a, b) <-> nth_error l j = Some a /\ nth_error l' j = Some b.
Proof. revert l' j. induction l as [|x l IH]; intros [|y l'] [|j]; simpl; try (split; [discriminate|intros []; discriminate]); [|apply IH]. split; [intros [= -> ->]; auto|intros [[= ->] [= ->]]; auto]. Qed.
Lemma seq_nth_error n j : j < n -> nth_error (seq 0 n) j = Some j.
Proof. intros H. rewrite (nth_error_nth' _ 0) by (rewrite seq_length; lia). now rewrite seq_nth by lia. Qed.

Lemma fw_many {A} (ks : list A) (im : A -> @M T rval) (wr : A -> pay -> @M T rval) (step : pay -> A -> @M T rval) :
  (forall a, In a ks -> pure (im a)) -> (forall a, In a ks -> fw (im a) (wr a)) ->
  (forall j a p st q, nth_error ks j = Some a -> item p j = Some q -> step p a st = wr a q st) ->
  fw (rs <- mmapM im ks ;; mret (RList rs)) (fun p => rs <- mmapM (step p) ks ;; mret (RList rs)).
Proof.
  intros Hp Hf Hs sg r H. unfold mbind at 1 in H. rewrite mmapM_pure in H by exact Hp.
  destruct (rmapM _ _) as [rs|] eqn:E; [|discriminate]. simpl in H. injection H as <-. apply rmapM_Ok in E. pose proof (Forall2_len _ _ _ E) as Hlen. split.
  - constructor. apply Forall_forall. intros r Hr. destruct (Forall2_In_r _ _ _ _ E Hr) as (a & Ha & Er). exact (proj1 (Hf a Ha sg r Er)).
  - intros p R st Hn Hb HR. inversion HR as [|l p' L F| |]; subst. pose proof (Forall2_len _ _ _ F) as Hlen'. rewrite combine_length, seq_length, Nat.min_id in Hlen'.
    set (tr := List.combine ks (List.combine rs L)).
    assert (Hl2 : length ks = length (List.combine rs L)) by (rewrite combine_length; lia).
    assert (Hks : map fst tr = ks) by now apply combine_fst.
    assert (Hpos : tposs tr = flat_map positions rs).
    { unfold tposs. rewrite <- (flat_map_map_ (fun t => fst (snd t)) positions), <- (map_map snd fst). unfold tr. rewrite combine_snd, combine_fst by (try assumption; lia). reflexivity. }
    destruct (fw_loop (step p) tr st) as (st' & xs & E1 & W & U & V).
    + intros a r0 R0 st1 Hin Hl Ha. apply In_nth_error in Hin as (j & Hj). apply combine_nth_error in Hj as (J1 & J2). apply combine_nth_error in J2 as (J2 & J3).
      assert (Hj : j < length rs) by (eapply nth_error_Some_lt_; eauto).
      destruct (Forall2_nth _ _ _ F j (j, r0)) as (R1 & HR1 & q & Hq & Hrec); [apply combine_nth_error; split; [now apply seq_nth_error|exact J2]|].
      assert (R1 = R0) by congruence. subst R1. cbn [fst snd] in *. rewrite (Hs j a p st1 q J1 Hq).
      assert (Hin : In r0 rs) by (eapply nth_error_In; eauto).
      destruct (Forall2_nth _ _ _ E j a J1) as (r1 & J4 & Hread). assert (r1 = r0) by congruence. subst r1.
      apply (proj2 (Hf a (nth_error_In _ _ J1) sg r0 Hread) q R0 st1); [apply (flat_map_part positions rs r0 Hn Hin)| |].
      * intros k Hk. rewrite Hl. apply Hb. simpl. apply in_flat_map. eauto.
      * apply (Receives_agree (ps_master st)); assumption.
    + rewrite Hpos. exact Hn.
    + exists st', (RList xs). rewrite Hks in E1. unfold mbind. rewrite E1. split; [reflexivity|]. split; [exact W|]. rewrite Hpos in U. split; [exact U|].
      constructor. apply Forall2_of_combine; [exact Hlen'|]. intros a b Hin. apply In_nth_error in Hin as (j & Hj).
      destruct (nth_error ks j) as [x|] eqn:Ex; [|apply nth_error_None in Ex; apply combine_nth_error in Hj as [Hj _]; apply nth_error_Some_lt_ in Hj; lia].
      apply (V x). apply (nth_error_In _ j). apply combine_nth_error. auto.
Qed.

Lemma fw_dict {A} (d : list A) (key : A -> string) (im : A -> @M T rval) (wr : A -> pay -> @M T rval) (stepk : string -> pay -> @M T rval) (wdict : pay -> @M T rval) :
  NoDup (map key d) -> (forall a, In a d -> pure (im a)) -> (forall a, In a d -> fw (im a) (wr a)) ->
  (forall a q st, In a d -> stepk (key a) q st = wr a q st) ->
  (forall kv st, (forall k, In k (map fst kv) -> In k (map key d)) -> wdict (PayDict kv) st = mdict (mmapM (fun x => r <- stepk (fst x) (snd x) ;; mret (fst x, r)) kv) st) ->
  (forall p st, match p with PayDict _ => False | _ => True end -> wdict p st = mdict (mmapM (fun a => r <- wr a p ;; mret (key a, r)) d) st) ->
  fw (mdict (mmapM (fun a => r <- im a ;; mret (key a, r)) d)) wdict.
Proof.
  intros Hnd Hp Hf Hs Hd Ho sg r H. unfold mdict, mbind at 1 in H. rewrite mmapM_pure in H by (intros a Ha; apply pure_bind; [now apply Hp|intros; apply pure_ret]).
  match type of H with context [rmapM ?g ?l0] => destruct (rmapM g l0) as [bs|] eqn:E end; [|discriminate]. simpl in H. injection H as <-. apply rmapM_Ok in E.
  assert (Hb : Forall2 (fun a b => fst b = key a /\ snd (im a sg) = Ok (snd b)) d bs).
  { eapply Forall2_impl; [|exact E]. intros a b. unfold mbind. destruct (im a sg) as [s1 [r1|]]; [|discriminate]. intros [= <-]. auto. }
  assert (Hk : map fst bs = map key d).
  { clear -Hb. induction Hb as [|x b d bs [H _] HF IH]; [reflexivity|]. simpl. f_equal; [exact H|exact IH]. }
  rewrite pydict_id by (rewrite Hk; exact Hnd). pose proof (Forall2_len _ _ _ Hb) as Hlen. split.
  - constructor; [now rewrite Hk|]. apply Forall_forall. intros b Hin. destruct (Forall2_In_r _ _ _ _ Hb Hin) as (a & Ha & _ & Er). exact (proj1 (Hf a Ha sg _ Er)).
  - intros p R st Hn Hbd HR. inversion HR as [| |l kv L Hkn Hin F|l p' L Hpd F]; subst.
    + (* a dict *)
      assert (Hch : forall x, In x kv -> exists t, (In (fst t) bs /\ fst (fst t) = fst x) /\ In t (List.combine bs L)).
      { intros x Hx. destruct (proj1 (in_map_iff _ _ _) (Hin (fst x) (in_map fst _ _ Hx))) as (b & Eb & Hbin). destruct (Forall2_In_l _ _ _ _ F Hbin) as (R0 & HR0 & _).
        apply In_nth_error in Hbin as (j & Hj). pose proof (Forall2_len _ _ _ F) as Hl. destruct (nth_error L j) as [y|] eqn:Ey; [|apply nth_error_None in Ey; apply nth_error_Some_lt_ in Hj; lia].
        exists (b, y). cbn [fst]. split; [split; [eapply nth_error_In; eauto|exact Eb]|]. apply (nth_error_In _ j). now apply combine_nth_error. }
      destruct (Forall_exists2 _ kv Hch) as (ts & HT). pose proof (Forall2_len _ _ _ HT) as HlT.
      set (tr := List.combine kv (map (fun t => (snd (fst t), snd (snd t))) ts) : list ((string * pay) * (rval * rval))).
      assert (Hkv : map fst tr = kv) by (apply combine_fst; now rewrite map_length).
      assert (Htp : tposs tr = flat_map (fun b => positions (snd b)) (map fst ts)).
      { unfold tposs. rewrite <- (flat_map_map_ (fun t => fst (snd t)) positions), <- (map_map snd fst). unfold tr. rewrite combine_snd by now rewrite map_length. rewrite map_map. cbn [fst]. now rewrite !flat_map_map_. }
      assert (Htk : map fst (map fst ts) = map fst kv).
      { clear -HT. induction HT as [|x t kv ts [[_ H] _] HF IH]; [reflexivity|]. simpl. f_equal; [exact H|exact IH]. }
      assert (Hti : incl (map fst ts) bs).
      { intros b Hbt. apply in_map_iff in Hbt as (t & <- & Ht). destruct (Forall2_In_r _ _ _ _ HT Ht) as (x & _ & [H _] & _). exact H. }
      assert (Htn : NoDup (map fst ts)) by (eapply NoDup_map_inv; rewrite Htk; exact Hkn).
      assert (HnT : NoDup (tposs tr)) by (rewrite Htp; apply (flat_map_sub (fun b => positions (snd b)) bs); assumption).
      assert (Hkbs : NoDup (map fst bs)) by now rewrite Hk.
      destruct (fw_loop (fun x => r <- stepk (fst x) (snd x) ;; mret (fst x, r)) tr st) as (st' & xs & E1 & W & U & V); [|exact HnT|].
      * intros [k q] r0 R0 st1 Hi Hl Ha. apply In_nth_error in Hi as (j & Hj). apply combine_nth_error in Hj as (J1 & J2). rewrite nth_error_map_ in J2.
        destruct (nth_error ts j) as [[[k' r'] [k'' R']]|] eqn:Et; [|discriminate]. cbn [option_map fst snd] in J2. injection J2 as -> ->.
        destruct (Forall2_nth _ _ _ HT j _ J1) as (t & Et' & [Hbi Hke] & Hci). rewrite Et in Et'. injection Et' as <-. cbn [fst snd] in *. subst k'.
        destruct (Forall2_combine _ _ _ _ _ F Hci) as (_ & Hc). cbn [fst snd] in Hc. rewrite (dict_get_of_In k q kv Hkn (nth_error_In _ _ J1)) in Hc.
        destruct Hc as [(q' & [= <-] & Hrec)|[Hc _]]; [|discriminate].
        destruct (Forall2_In_r _ _ _ _ Hb Hbi) as (a & Hai & Hka & Hread). cbn [fst snd] in *. 
        destruct (proj2 (Hf a Hai sg r0 Hread) q R0 st1) as (st2 & x & E2 & HW).
        -- apply (flat_map_part (fun b => positions (snd b)) bs (k, r0) Hn Hbi).
        -- intros i Hi. rewrite Hl. apply Hbd. simpl. apply in_flat_map. exists (k, r0). auto.
        -- apply (Receives_agree (ps_master st)); assumption.
        -- exists st2, (k, x). split; [|exact HW]. unfold mbind. rewrite Hka, (Hs a q st1 Hai), E2. reflexivity.
      * rewrite Hkv in E1. exists st', (RDict (pydict xs)). rewrite Hd by (intros k Hk'; rewrite <- Hk; now apply Hin). unfold mdict, mbind at 1. rewrite E1. split; [reflexivity|]. split; [exact W|].
        assert (Hincl : incl (tposs tr) (positions (RDict bs))).
        { rewrite Htp. intros i Hi. apply in_flat_map in Hi as (b & Hb1 & Hb2). simpl. apply in_flat_map. exists b. split; [now apply Hti|exact Hb2]. }
        split; [eapply unchanged_incl; eauto|]. constructor. apply Forall2_of_combine; [eapply Forall2_len; eauto|]. intros [k r0] [k' R0] Hi. 
        destruct (Forall2_combine _ _ _ _ _ F Hi) as (He & Hc). cbn [fst snd] in *. subst k'. split; [reflexivity|]. pose proof (in_combine_l _ _ _ _ Hi) as Hbi.
        destruct Hc as [(q & Hq & _)|[Hq HV]].
        -- apply dict_get_In in Hq. apply In_nth_error in Hq as (j & Hj). destruct (Forall2_nth _ _ _ HT j _ Hj) as ([[k1 r1] [k2 R1]] & Et & [Hb1 Hk1] & Hc1). cbn [fst snd] in *. subst k1.
           assert (Er : r1 = r0) by (pose proof (dict_get_of_In k r0 bs Hkbs Hbi); pose proof (dict_get_of_In k r1 bs Hkbs Hb1); congruence). subst r1.
           assert (ER : R1 = R0).
           { destruct (Forall2_combine _ _ _ _ _ F Hc1) as (He1 & _). cbn [fst] in He1. subst k2.
             assert (HkL : NoDup (map fst L)) by (replace (map fst L) with (map fst bs); [exact Hkbs|]; clear -F; induction F as [|x y l l' [H _] HF IH]; [reflexivity|]; simpl; f_equal; [exact H|exact IH]).
             pose proof (dict_get_of_In k R0 L HkL (in_combine_r _ _ _ _ Hi)). pose proof (dict_get_of_In k R1 L HkL (in_combine_r _ _ _ _ Hc1)). congruence. }
           subst R1. apply (V (k, q)). apply (nth_error_In _ j). apply combine_nth_error. split; [exact Hj|]. rewrite nth_error_map_, Et. reflexivity.
        -- apply (Values_agree (ps_master st)); [|exact HV]. intros i Hi'. apply U. rewrite Htp. intros Hx. apply in_flat_map in Hx as (b & Hb1 & Hb2).
           apply (flat_map_disj (fun b => positions (snd b)) bs (k, r0) b i Hn Hbi (Hti _ Hb1)); [|exact Hi'|exact Hb2].
           intros <-. assert (Hkk : In k (map fst kv)) by (rewrite <- Htk; apply (in_map fst _ _ Hb1)). apply in_map_iff in Hkk as ([k1 q] & Ek1 & Hq1). simpl in Ek1. subst k1.
           rewrite (dict_get_of_In k q kv Hkn Hq1) in Hq. discriminate.
    + (* one value for all *)
      pose proof (Forall2_len _ _ _ F) as HlF.
      set (tr := List.combine d (List.combine (map snd bs) (map snd L))).
      assert (Hl2 : length d = length (List.combine (map snd bs) (map snd L))) by (rewrite combine_length, !map_length; lia).
      assert (Hds : map fst tr = d) by now apply combine_fst.
      assert (Hpos : tposs tr = flat_map (fun b => positions (snd b)) bs).
      { unfold tposs. rewrite <- (flat_map_map_ (fun t => fst (snd t)) positions), <- (map_map snd fst). unfold tr. rewrite combine_snd, combine_fst by (try assumption; rewrite !map_length; lia). apply flat_map_map_. }
      assert (Hj : forall j a r0 R0, nth_error d j = Some a -> nth_error (map snd bs) j = Some r0 -> nth_error (map snd L) j = Some R0 -> exists b B, nth_error bs j = Some b /\ nth_error L j = Some B /\ snd b = r0 /\ snd B = R0 /\ snd (im a sg) = Ok r0 /\ fst b = fst B /\ Receives (ps_master st) r0 p R0).
      { intros j a r0 R0 J1 J2 J3. rewrite nth_error_map_ in J2, J3. destruct (nth_error bs j) as [b|] eqn:Eb; [|discriminate]. destruct (nth_error L j) as [B|] eqn:EB; [|discriminate]. injection J2 as <-. injection J3 as <-.
        exists b, B. destruct (Forall2_nth _ _ _ Hb j a J1) as (b' & Eb' & _ & Hread). assert (b' = b) by congruence. subst b'.
        destruct (Forall2_nth _ _ _ F j b Eb) as (B' & EB' & H1 & H2). assert (B' = B) by congruence. subst B'. auto 10. }
      destruct (fw_loop (fun a => r <- wr a p ;; mret (key a, r)) tr st) as (st' & xs & E1 & W & U & V).
      * intros a r0 R0 st1 Hi Hl Ha. apply In_nth_error in Hi as (j & Hjj). apply combine_nth_error in Hjj as (J1 & J2). apply combine_nth_error in J2 as (J2 & J3).
        destruct (Hj j a r0 R0 J1 J2 J3) as (b & B & Eb & EB & E2 & E3 & Hread & He & Hrec). pose proof (nth_error_In _ _ Eb) as Hbi.
        destruct (proj2 (Hf a (nth_error_In _ _ J1) sg r0 Hread) p R0 st1) as (st2 & x & Ew & HW).
        -- rewrite <- E2. apply (flat_map_part (fun b => positions (snd b)) bs b Hn Hbi).
        -- intros i Hi. rewrite Hl. apply Hbd. simpl. apply in_flat_map. exists b. rewrite E2. auto.
        -- apply (Receives_agree (ps_master st)); assumption.
        -- exists st2, (key a, x). split; [|exact HW]. unfold mbind. rewrite Ew. reflexivity.
      * rewrite Hpos. exact Hn.
      * rewrite Hds in E1. exists st', (RDict (pydict xs)). rewrite Ho by exact Hpd. unfold mdict, mbind at 1. rewrite E1. split; [reflexivity|]. split; [exact W|]. rewrite Hpos in U. split; [exact U|].
        constructor. apply Forall2_of_combine; [exact HlF|]. intros b B Hi. destruct (Forall2_combine _ _ _ _ _ F Hi) as (He & _). split; [exact He|].
        apply In_nth_error in Hi as (j & Hjj). apply combine_nth_error in Hjj as (J1 & J2). destruct (nth_error d j) as [a|] eqn:Ea; [|apply nth_error_None in Ea; apply nth_error_Some_lt_ in J1; lia].
        apply (V a). apply (nth_error_In _ j). apply combine_nth_error. split; [exact Ea|]. apply combine_nth_error. rewrite !nth_error_map_, J1, J2. auto.
Qed.

(** ** Traversals *)
Definition fwclos (f : clos) : Prop := forall en pi ci, env_ok en -> initial pi ->
  fw (f en MIM pi ci PayNone) (fun p => f en MSet pi ci p).

Lemma fw_err e wr : fw (merr e) wr.
Proof. intros sg r H. discriminate. Qed.

Lemma fw_travD en ei sub : env_ok en -> ei_symm ei = false -> (forall f, sub = Some f -> fwclos f /\ pclos f) ->
  forall dims pi ci, initial pi ->
  fw (travD zero en ei sub dims MIM pi ci PayNone) (fun p => travD zero en ei sub dims MSet pi ci p).
Proof.
  intros Hen Hs Hsub. induction dims as [|d ds IH]; intros pi ci Hpi.
  - cbn [travD]. apply (fw_wrap _ (fun p => match pi with [] => _ | _ => _ end)).
    destruct pi as [|x pi]; [apply (fw_dispatch en ci None (Some ei)); auto; constructor|].
    destruct sub as [f|]; [now apply (Hsub f eq_refl)|]. apply (fw_dispatch en ci (Some (x :: pi)) (Some ei)); auto. now apply initial_no_fun.
  - assert (Hmany : forall n rest, initial rest ->
       fw (rs <- mmapM (fun k => match k with
                     | KS _ => merr EType
                     | KI i => p' <- mlift (payloadUnpack PayNone k) ;;
                               travD zero en ei sub ds MIM rest (ci ++ [KI (canonical i d)]) p'
                     end) (map KI (map Z.of_nat (seq 0 n))) ;; mret (RList rs))
          (fun p => rs <- mmapM (fun k => match k with
                     | KS _ => merr EType
                     | KI i => p' <- mlift (payloadUnpack p k) ;;
                               travD zero en ei sub ds MSet rest (ci ++ [KI (canonical i d)]) p'
                     end) (map KI (map Z.of_nat (seq 0 n))) ;; mret (RList rs))).
    { intros n rest Hr. apply (fw_many _ _ (fun k q => match k with KS _ => merr EType | KI i => travD zero en ei sub ds MSet rest (ci ++ [KI (canonical i d)]) q end)
        (fun p k => match k with KS _ => merr EType | KI i => p' <- mlift (payloadUnpack p k) ;; travD zero en ei sub ds MSet rest (ci ++ [KI (canonical i d)]) p' end)).
      - intros k Hk. rewrite map_map in Hk. apply in_map_iff in Hk as (j & <- & _). apply pure_bind; [apply pure_lift|]. intros. apply pure_travD; [intros f Hf; now apply Hsub|reflexivity].
      - intros k Hk. rewrite map_map in Hk. apply in_map_iff in Hk as (j & <- & _). exact (IH rest _ Hr).
      - intros j k p st q Hj Hq. rewrite map_map, nth_error_map_ in Hj. destruct (nth_error (seq 0 n) j) as [j'|] eqn:Ej; [|discriminate].
        assert (j' = j) as -> by (pose proof (nth_error_Some_lt_ _ _ _ Ej) as Hl; rewrite seq_length in Hl; rewrite seq_nth_error in Ej by exact Hl; congruence).
        injection Hj as <-. rewrite unpack_item, Hq. reflexivity. }
    assert (Hslc : forall sl rest, initial_slice sl -> initial rest ->
       fw (l <- mlift (slice_range sl d) ;; rs <- mmapM (fun k => match k with
                     | KS _ => merr EType
                     | KI i => p' <- mlift (payloadUnpack PayNone k) ;;
                               travD zero en ei sub ds MIM rest (ci ++ [KI (canonical i d)]) p'
                     end) (map KI l) ;; mret (RList rs))
          (fun p => l <- mlift (slice_range sl d) ;; rs <- mmapM (fun k => match k with
                     | KS _ => merr EType
                     | KI i => p' <- mlift (payloadUnpack p k) ;;
                               travD zero en ei sub ds MSet rest (ci ++ [KI (canonical i d)]) p'
                     end) (map KI l) ;; mret (RList rs))).
    { intros sl rest Hsl Hr. destruct (slice_range sl d) as [l|] eqn:E; [|intros sg r H; discriminate]. destruct (initial_positions _ _ _ Hsl E) as (k & ->).
      exact (Hmany k rest Hr). }
    cbn [travD]. destruct pi as [|x rest].
    + apply (fw_wrap _ (fun p => l <- mlift (slice_range slice_all d) ;; _)). apply Hslc; [split; left; reflexivity|constructor].
    + apply Forall_cons_iff in Hpi as [Hx Hr]. destruct x; try contradiction; try (intros st R H; discriminate).
      * apply (fw_wrap _ (fun p => travD zero en ei sub ds MSet rest (ci ++ [KI (canonical i d)]) p)). now apply IH.
      * apply (fw_wrap _ (fun p => l <- mlift (slice_range s d) ;; _)). now apply Hslc.
      * apply (fw_wrap _ (fun p => rs <- mmapM _ _ ;; mret (RList rs))). apply Hmany. repeat constructor.
Qed.

Lemma filter_id {A} (f : A -> bool) l : (forall x, In x l -> f x = true) -> filter f l = l.
Proof. induction l as [|a l IH]; intros H; [reflexivity|]. simpl. rewrite (H a (or_introl eq_refl)). f_equal. apply IH. intros; apply H; now right. Qed.

Lemma enum_nth {A} (l : list A) j x : nth_error (enum l) j = Some x -> fst x = Z.of_nat j /\ nth_error l j = Some (snd x).
Proof.
  destruct x as [i a]. unfold enum. intros H. apply combine_nth_error in H as (H1 & H2). split; [|exact H2]. rewrite nth_error_map_ in H1.
  rewrite seq_nth_error in H1 by (eapply nth_error_Some_lt_; eauto). now injection H1.
Qed.

Lemma fw_travS_body d keys : NoDup (map fst d) -> (forall k f, In (k, f) d -> fwclos f /\ pclos f) ->
  forall en pi ci, env_ok en -> initial pi ->
  fw (travS_body zero d keys en MIM pi ci PayNone) (fun p => travS_body zero d keys en MSet pi ci p).
Proof.
  intros Hnd Hd en pi ci Hen Hpi. destruct pi as [|x rest]; cbn [travS_body].
  - apply (fw_wrap _ (fun p => dispatch zero en MSet p ci None None)). apply (fw_dispatch en ci None None); auto; constructor.
  - apply Forall_cons_iff in Hpi as [Hx Hr].
    assert (Hlook : forall rest, initial rest -> forall k, fw (f <- look d k ;; f en MIM rest (ci ++ [KS k]) PayNone) (fun p => f <- look d k ;; f en MSet rest (ci ++ [KS k]) p)).
    { clear rest Hr. intros rest Hr k. unfold look. destruct (dict_get k d) as [f|] eqn:E; [|intros sg r H; discriminate].
      exact (proj1 (Hd k f (dict_get_In _ _ _ E)) en rest (ci ++ [KS k]) Hen Hr). }
    assert (Hdict : forall rest, initial rest ->
       fw (mdict (mmapM (fun x => r <- snd x en MIM rest (ci ++ [KS (fst x)]) PayNone ;; mret (fst x, r)) d))
          (fun p => match p with
    | PayDict kv =>
        mdict (mmapM (fun x => f <- look d (fst x) ;;
                               r <- f en MSet rest (ci ++ [KS (fst x)]) (snd x) ;; mret (fst x, r)) kv)
    | _ =>
        mdict (mmapM (fun x => r <- snd x en MSet rest (ci ++ [KS (fst x)]) p ;; mret (fst x, r)) d)
    end)).
    { clear rest Hr. intros rest Hr.
      apply (fw_dict d fst (fun x => snd x en MIM rest (ci ++ [KS (fst x)]) PayNone) (fun x q => snd x en MSet rest (ci ++ [KS (fst x)]) q)
        (fun k q => f <- look d k ;; f en MSet rest (ci ++ [KS k]) q)); [exact Hnd| | | | |].
      - intros [k f] Hin. now apply (Hd k f).
      - intros [k f] Hin. now apply (Hd k f).
      - intros [k f] q st Hin. cbn [fst snd]. now rewrite (look_In d k f Hnd Hin).
      - intros kv st _. unfold mdict. apply mbind_eq; [|reflexivity]. apply mmapM_eq. intros x0 s0 _. unfold look. destruct (dict_get (fst x0) d); reflexivity.
      - intros p st Hp. destruct p; try contradiction; reflexivity. }
    destruct x; try contradiction; try (intros st R H; discriminate).
    + apply (fw_wrap _ (fun p => f <- look d s ;; f en MSet rest (ci ++ [KS s]) p)). now apply Hlook.
    + apply (fw_wrap _ (fun p => rs <- mmapM _ _ ;; mret (RList rs))).
      apply (fw_many (enum keys) _ (fun x q => f <- look d (snd x) ;; f en MSet rest (ci ++ [KS (snd x)]) q)
        (fun p x => f <- look d (snd x) ;; p' <- mlift (payloadUnpack p (KI (fst x))) ;; f en MSet rest (ci ++ [KS (snd x)]) p')).
      * intros [i k] _. apply pure_look_bind. intros f Hf. apply pure_bind; [apply pure_lift|]. intros. now apply (Hd _ _ Hf).
      * intros [i k] _. cbn [fst snd]. exact (Hlook rest Hr k).
      * intros j [i k] p st q Hj Hq. apply enum_nth in Hj as [Hj _]. cbn [fst snd] in *. subst i. rewrite unpack_item, Hq. unfold look. destruct (dict_get k d); reflexivity.
    + apply (fw_wrap _ (fun p => match p with PayDict kv => _ | _ => _ end)). now apply Hdict.
    + apply (fw_wrap _ (fun p => match p with PayDict kv => _ | _ => _ end)).
      assert (E : forall sg, mdict (mmapM (fun k => f <- look d k ;; r <- f en MIM rest (ci ++ [KS k]) PayNone ;; mret (k, r)) l) sg =
         mdict (mmapM (fun k => r <- (f <- look d k ;; f en MIM rest (ci ++ [KS k]) PayNone) ;; mret (k, r)) l) sg).
      { intros sg. unfold mdict. apply mbind_eq; [|reflexivity]. apply mmapM_eq. intros k s0 _. unfold look. destruct (dict_get k d); reflexivity. }
      intros sg r H. rewrite E in H. revert sg r H.
      apply (fw_dict l (fun k => k) (fun k => f <- look d k ;; f en MIM rest (ci ++ [KS k]) PayNone) (fun k q => f <- look d k ;; f en MSet rest (ci ++ [KS k]) q)
        (fun k q => f <- look d k ;; f en MSet rest (ci ++ [KS k]) q)).
      * now rewrite map_id.
      * intros k _. apply pure_look_bind. intros f Hf. now apply (Hd _ _ Hf).
      * intros k _. now apply Hlook.
      * reflexivity.
      * intros kv st Hin. rewrite filter_id by (intros x Hx'; apply str_mem_In; rewrite map_id in Hin; apply Hin; now apply in_map).
        unfold mdict. apply mbind_eq; [|reflexivity]. apply mmapM_eq. intros x0 s0 _. unfold look. destruct (dict_get (fst x0) d); reflexivity.
      * intros p st Hp. destruct p; try contradiction; unfold mdict; (apply mbind_eq; [|reflexivity]); apply mmapM_eq; intros x0 s0 _; unfold look; destruct (dict_get x0 d); reflexivity.
    + apply (fw_wrap _ (fun p => match p with PayDict kv => _ | _ => _ end)). apply Hdict. repeat constructor.
Qed.

Lemma fw_travS s : NoSymm s -> fwclos (travS zero s).
Proof.
  induction s as [es order IH] using structure_ind2. intros Hns en pi ci Hen Hpi sg r. rewrite !travS_eq.
  revert sg r. apply (fw_travS_body (sdictT zero (mkStruct es order)) (s_keys (mkStruct es order))); [apply NoDup_pydict| |exact Hen|exact Hpi].
  intros k f Hin. unfold sdictT in Hin. apply in_pydict in Hin. simpl in Hin. apply in_map_iff in Hin as (e & [= <- <-] & He).
  inversion Hns as [es' order' H1 H2]; subst.
  assert (Hsub : forall f, subT zero e = Some f -> fwclos f /\ pclos f).
  { unfold subT. intros f. destruct (e_struct e) as [s'|] eqn:Es; [|discriminate]. intros [= <-]. split; [eapply IH; eauto|apply pure_travS]. }
  split.
  - intros en' pi' ci' Hen' Hpi'. eapply fw_ext; [intros; symmetry; rewrite travE_eq; reflexivity|intros; symmetry; rewrite travE_eq; reflexivity|].
    refine (fw_travD en' (info zero e) (subT zero e) Hen' _ Hsub (e_dims e) pi' ci' Hpi'). now apply H1.
  - intros en' md' pi' ci' p' Hm'. rewrite travE_eq. apply pure_travD; [|exact Hm']. intros f Hf. now apply Hsub.
Qed.

Lemma initial_no_fun' pi : @initial T pi -> no_fun pi.
Proof. apply Forall_impl. intros []; auto. Qed.

Lemma gin_below n r : forall R, rtrans (gin n) r = Some R -> below n r.
Proof.
  induction r as [| |m|fl|rs IH|rs IH] using rval_ind2; intros R H; simpl in H; try discriminate; intros k Hk; simpl in Hk.
  - unfold gin in H. destruct (forallb _ _) eqn:E; [|discriminate]. rewrite forallb_forall in E. now apply Nat.ltb_lt, E.
  - destruct (omapM _ rs) as [Rs|] eqn:E; [|discriminate]. apply omapM_Some in E. apply in_flat_map in Hk as (r & Hr & Hk). destruct (Forall2_In_l _ _ _ _ E Hr) as (R' & _ & ER). rewrite Forall_forall in IH. exact (IH r Hr R' ER k Hk).
  - destruct (omapM _ rs) as [Rs|] eqn:E; [|discriminate]. apply omapM_Some in E. apply in_flat_map in Hk as (r & Hr & Hk). destruct (Forall2_In_l _ _ _ _ E Hr) as (R' & _ & ER). rewrite Forall_forall in IH.
    destruct (rtrans (gin n) (snd r)) as [R0|] eqn:E0; [|discriminate]. exact (IH r Hr R0 E0 k Hk).
Qed.

(** C101 *)
Theorem assign_reads s c (st : pstate) pi r p R :
  Obj s c st -> NoSymm s -> initial pi -> i_get zero s pi = Ok r -> NoDup (positions r) -> Receives (ps_master st) r p R ->
  exists st' x, setitem zero s (num_env c) pi p st = (st', Ok x) /\
    getitem zero s (num_env c) pi st' = Ok R /\ unchanged (positions r) st st' /\
    ps_mirror st' = ps_mirror st /\ ps_storage st' = ps_storage st.
Proof.
  intros Ho Hns Hpi Hr Hn HR. destruct Ho as [Hw Hc Hlen]. destruct (i_get_run zero s c pi r Hc Hr) as (sg & E).
  assert (Hb : below (length (ps_master st)) r) by (rewrite Hlen; apply (gin_below _ _ r); apply (i_get_in zero s c pi r Hw Hc (initial_no_fun' _ Hpi) Hr)).
  destruct (proj2 (fw_travS s Hns (num_env c) pi [] (num_env_ok s c Hw Hc) Hpi empty_state r (f_equal snd E)) p R st Hn Hb HR) as (st' & x & E' & W & U & V).
  exists st', x. split; [exact E'|]. split; [|split; [exact U|rewrite W; split; reflexivity]].
  apply (getitem_values zero s c st'); [constructor; [exact Hw|exact Hc|]|exact Hns|now apply initial_no_fun'|].
  - rewrite <- Hlen. apply U.
  - exists r. auto.
Qed.

(** ** Copying *)
Lemma Receives_copy v v' r : forall R, RvOk r -> Values v r R -> Receives v' r (pay_of R) R.
Proof.
  induction r as [| |m|fl|rs IH|rs IH] using rval_ind2; intros R Ho H; inversion H as [m' nz F|l L F|l L F]; subst; inversion Ho as [m0 Hm|l0 Hl|l0 Hk Hl]; subst; cbn [pay_of].
  - assert (HM : DmOk (DM (dm_sp m) nz)) by (split; [apply Hm|]; cbn [dm_nz dm_sp]; rewrite <- (Forall2_len _ _ _ F); apply Hm).
    replace nz with (map (fit zero (DM (dm_sp m) nz) (dm_sp m)) (sp_pat (dm_sp m))) at 2; [apply Rc_mat; [exact HM|reflexivity|right; left; reflexivity]|].
    pose proof (nz_vals zero _ HM) as En. cbn [dm_nz dm_sp] in En. rewrite En at 2. apply map_ext_in. intros p Hp. unfold fit. unfold dm_nr, dm_nc. cbn [dm_sp]. rewrite !Nat.eqb_refl. simpl.
    destruct (dm_is_scalar _) eqn:Es; [|reflexivity]. unfold dm_is_scalar, dm_nr, dm_nc in Es. cbn [dm_sp] in Es. apply andb_true_iff in Es as [E1 E2]. apply Nat.eqb_eq in E1, E2.
    destruct Hm as [[_ Hbd] _]. rewrite Forall_forall in Hbd. specialize (Hbd p Hp). destruct p as [a b]. cbn [fst snd] in Hbd. f_equal. f_equal; lia.
  - constructor. pose proof (Forall2_len _ _ _ F) as Hlen. apply Forall2_of_combine; [rewrite combine_length, seq_length; lia|]. intros [j r] R0 Hin.
    apply In_nth_error in Hin as (i & Hi). apply combine_nth_error in Hi as (Hi & Hi2). apply combine_nth_error in Hi as (Hi & Hi1). rewrite seq_nth_error in Hi by (eapply nth_error_Some_lt_; eauto). injection Hi as <-.
    exists (pay_of R0). cbn [fst snd item]. split; [now apply map_nth_error|]. destruct (Forall2_nth _ _ _ F i r Hi1) as (R1 & H1 & H2). assert (R1 = R0) by congruence. subst R1.
    rewrite Forall_forall in IH, Hl. apply (IH r (nth_error_In _ _ Hi1)); [apply Hl; eapply nth_error_In; eauto|exact H2].
  - assert (HkL : map fst L = map fst rs) by (clear -F; induction F as [|x y l l' [H _] HF IH]; [reflexivity|]; simpl; f_equal; [symmetry; exact H|exact IH]).
    assert (Hkp : map fst (map (fun kv => (fst kv, pay_of (snd kv))) L) = map fst rs) by (rewrite map_map; exact HkL).
    apply Rc_dict; [rewrite Hkp; exact Hk|intros k; now rewrite Hkp|]. apply Forall2_of_combine; [eapply Forall2_len; eauto|]. intros a b Hin.
    destruct (Forall2_combine _ _ _ _ _ F Hin) as (He & HV). split; [exact He|]. left. exists (pay_of (snd b)). split.
    + apply dict_get_of_In; [rewrite Hkp; exact Hk|]. apply in_map_iff. exists b. rewrite He. split; [reflexivity|]. eapply in_combine_r; eauto.
    + apply in_combine_l in Hin. rewrite Forall_forall in IH, Hl. apply (IH a Hin); [now apply Hl|exact HV].
Qed.

Theorem assign_copy s c (st1 st2 : pstate) pi r :
  Obj s c st1 -> Obj s c st2 -> NoSymm s -> initial pi -> i_get zero s pi = Ok r -> NoDup (positions r) ->
  exists R st' x, getitem zero s (num_env c) pi st1 = Ok R /\
    setitem zero s (num_env c) pi (pay_of R) st2 = (st', Ok x) /\
    length (ps_master st') = length (ps_master st2) /\
    forall k, nth_error (ps_master st') k = nth_error (if in_dec Nat.eq_dec k (positions r) then ps_master st1 else ps_master st2) k.
Proof.
  intros Ho1 Ho2 Hns Hpi Hr Hn. destruct (getitem_defined zero s c st1 pi r Ho1 Hns (initial_no_fun' _ Hpi) Hr) as (R & ER & HV).
  destruct (i_get_run zero s c pi r (ob_built _ _ _ Ho1) Hr) as (sg & E).
  pose proof (proj1 (fw_travS s Hns (num_env c) pi [] (num_env_ok s c (ob_wf _ _ _ Ho1) (ob_built _ _ _ Ho1)) Hpi empty_state r (f_equal snd E))) as Hok.
  destruct (assign_reads s c st2 pi r (pay_of R) R Ho2 Hns Hpi Hr Hn (Receives_copy _ (ps_master st2) r R Hok HV)) as (st' & x & E1 & E2 & U & _).
  exists R, st', x. split; [exact ER|]. split; [exact E1|]. split; [apply U|]. intros k. destruct (in_dec Nat.eq_dec k (positions r)) as [Hk|Hk]; [|now apply U].
  assert (Ho' : Obj s c st') by (constructor; [apply Ho1|apply Ho1|rewrite (proj1 U); apply Ho2]).
  apply (getitem_values zero s c st' pi R Ho' Hns (initial_no_fun' _ Hpi)) in E2 as (r' & Hr' & HV'). assert (r' = r) by congruence. subst r'.
  clear -HV HV' Hk. revert R HV HV' k Hk. induction r as [| |m|fl|rs IH|rs IH] using rval_ind2; intros R HV HV' k Hk; inversion HV as [m1 nz1 F1|l1 L1 F1|l1 L1 F1]; subst; inversion HV' as [m2 nz2 F2|l2 L2 F2|l2 L2 F2]; subst; cbn [positions] in Hk.
  - destruct (Forall2_In_l _ _ _ _ F1 Hk) as (x & _ & _). apply In_nth_error in Hk as (j & Hj). destruct (Forall2_nth _ _ _ F1 j k Hj) as (x1 & J1 & E1). destruct (Forall2_nth _ _ _ F2 j k Hj) as (x2 & J2 & E2). congruence.
  - apply in_flat_map in Hk as (r & Hr & Hk). apply In_nth_error in Hr as (j & Hj). destruct (Forall2_nth _ _ _ F1 j r Hj) as (x1 & J1 & E1). destruct (Forall2_nth _ _ _ F2 j r Hj) as (x2 & J2 & E2). assert (x2 = x1) by congruence. subst x2.
    rewrite Forall_forall in IH. exact (IH r (nth_error_In _ _ Hj) x1 E1 E2 k Hk).
  - apply in_flat_map in Hk as (r & Hr & Hk). apply In_nth_error in Hr as (j & Hj). destruct (Forall2_nth _ _ _ F1 j r Hj) as (x1 & J1 & _ & E1). destruct (Forall2_nth _ _ _ F2 j r Hj) as (x2 & J2 & _ & E2). assert (x2 = x1) by congruence. subst x2.
    rewrite Forall_forall in IH. exact (IH r (nth_error_In _ _ Hj) (snd x1) E1 E2 k Hk).
Qed.

(** ** nesteddict lists every position once *)
Definition posof (en : env) (ci : cidx) : list nat := match cmap_get ci (en_map en) with Some m => dm_nz m | None => [] end.
Definition covers (en : env) (L : list cidx) (ci : cidx) (im : @M T rval) : Prop :=
  forall sg, exists r, snd (im sg) = Ok r /\ positions r = flat_map (fun x => posof en (ci ++ x)) L.
Fixpoint Ld (dims : list Z) (Le : list cidx) : list cidx :=
  match dims with [] => Le | d :: ds => flat_map (fun i => map (cons (KI i)) (Ld ds Le)) (pyrange d) end.

Lemma in_pyrange d i : In i (pyrange d) <-> (0 <= i < d)%Z.
Proof. unfold pyrange. rewrite in_map_iff. split; [intros (j & <- & Hj); apply in_seq in Hj; lia|]. intros H. exists (Z.to_nat i). split; [lia|apply in_seq; lia]. Qed.

Lemma in_Ld dims Le x : In x (Ld dims Le) <-> exists idx y, InDims idx dims /\ x = map KI idx ++ y /\ In y Le.
Proof.
  revert x. induction dims as [|d ds IH]; intros x; cbn [Ld].
  - split; [intros H; exists [], x; repeat split; [constructor|exact H]|]. intros (idx & y & Hi & -> & Hy). inversion Hi; subst. exact Hy.
  - rewrite in_flat_map. split.
    + intros (i & Hi & Hx). apply in_map_iff in Hx as (z & <- & Hz). apply IH in Hz as (idx & y & Hd & -> & Hy). exists (i :: idx), y. repeat split; [constructor; [now apply in_pyrange|exact Hd]|exact Hy].
    + intros (idx & y & Hi & -> & Hy). inversion Hi as [|i d' idx' ds' H1 H2]; subst. exists i. split; [now apply in_pyrange|]. simpl. apply in_map. apply IH. eauto.
Qed.

Lemma NoDup_flat_map_intro {A B} (f : A -> list B) l : NoDup l -> (forall a, In a l -> NoDup (f a)) -> (forall a a' b, In a l -> In a' l -> In b (f a) -> In b (f a') -> a = a') -> NoDup (flat_map f l).
Proof.
  induction l as [|a l IH]; intros Hn H1 H2; simpl; [constructor|]. apply NoDup_cons_iff in Hn as [Ha Hn]. apply NoDup_app_intro_; [apply H1; now left| |].
  - apply IH; [exact Hn|intros; apply H1; now right|]. intros x y b Hx Hy. apply H2; now right.
  - intros b Hb Hb'. apply in_flat_map in Hb' as (a' & Ha' & Hb'). rewrite (H2 a a' b) in Ha; simpl; auto.
Qed.

Lemma NoDup_map_cons {A} (k : A) (L : list (list A)) : NoDup L -> NoDup (map (cons k) L).
Proof. induction 1 as [|x L Hx Hn IH]; simpl; constructor; [|exact IH]. intros H. apply in_map_iff in H as (y & [= ->] & Hy). contradiction. Qed.

Lemma NoDup_pyrange d : NoDup (pyrange d).
Proof. unfold pyrange. apply FinFun.Injective_map_NoDup; [|apply seq_NoDup]. intros a b. lia. Qed.

Lemma NoDup_Ld dims Le : NoDup Le -> NoDup (Ld dims Le).
Proof.
  intros Hn. induction dims as [|d ds IH]; cbn [Ld]; [exact Hn|]. apply NoDup_flat_map_intro; [apply NoDup_pyrange| |].
  - intros i _. now apply NoDup_map_cons.
  - intros a a' b _ _ Hb Hb'. apply in_map_iff in Hb as (x & <- & _). apply in_map_iff in Hb' as (y & E & _). congruence.
Qed.

Lemma covers_wrap en L ci im : covers en L ci im -> covers en L ci (mwrap im).
Proof. intros H sg. destruct (H sg) as (r & E & Hp). exists r. rewrite mwrap_snd, E. auto. Qed.

Lemma flat_map_flat_map {A B C} (f : A -> list B) (g : B -> list C) l : flat_map g (flat_map f l) = flat_map (fun a => flat_map g (f a)) l.
Proof. induction l as [|a l IH]; [reflexivity|]. simpl. rewrite flat_map_app. now rewrite IH. Qed.

Lemma covers_travD en ei sub Le : (forall f, sub = Some f -> pclos f) -> forall dims ci,
  (forall idx, InDims idx dims -> covers en Le (ci ++ map KI idx) (travD zero en ei sub [] MIM [PNest] (ci ++ map KI idx) PayNone)) ->
  covers en (Ld dims Le) ci (travD zero en ei sub dims MIM [PNest] ci PayNone).
Proof.
  intros Hsub. induction dims as [|d ds IH]; intros ci H.
  - specialize (H [] (Forall2_nil _)). cbn [map Ld] in *. rewrite app_nil_r in H. exact H.
  - cbn [travD Ld]. apply covers_wrap. intros sg. unfold mbind at 1. rewrite many_pure by (auto; reflexivity).
    assert (G : Forall2 (fun i r => readD zero en ei sub ds MIM [PNest] ci d sg i = Ok r /\ positions r = flat_map (fun x => posof en (ci ++ KI i :: x)) (Ld ds Le)) (pyrange d)
       (map (fun i => match readD zero en ei sub ds MIM [PNest] ci d sg i with Ok r => r | Err _ => RNone end) (pyrange d))).
    { apply Forall2_of_combine; [now rewrite map_length|]. intros i r Hin. apply In_nth_error in Hin as (j & Hj). apply combine_nth_error in Hj as (J1 & J2). rewrite nth_error_map_, J1 in J2. cbn [option_map] in J2. injection J2 as <-.
      apply nth_error_In, in_pyrange in J1. destruct (IH (ci ++ [KI i])) with (sg := sg) as (r & E & Hp).
      - intros idx Hi. specialize (H (i :: idx) (Forall2_cons _ _ J1 Hi)). cbn [map] in H. rewrite <- app_assoc. exact H.
      - unfold readD. replace (canonical i d) with i by (unfold canonical; destruct (i <? 0)%Z eqn:El; lia). rewrite E. split; [reflexivity|]. rewrite Hp. apply flat_map_ext. intros x. now rewrite <- app_assoc. }
    match type of G with Forall2 _ _ ?x => set (rs := x) in * end.
    rewrite (proj2 (rmapM_Ok _ _ rs)) by (eapply Forall2_impl; [|exact G]; cbn; intros a b [Hab _]; exact Hab).
    exists (RList rs). split; [reflexivity|]. cbn [positions]. rewrite flat_map_flat_map. clear -G. induction G as [|i r l rs [_ Hp] G IH]; [reflexivity|]. simpl. rewrite IH. f_equal. rewrite Hp. now rewrite flat_map_map_.
Qed.

Lemma nest_covers s : Wf s -> exists L, NoDup L /\ (forall x, In x L <-> exists e, Leaf s x e) /\
  forall en ci, (forall x, In x L -> exists m, cmap_get (ci ++ x) (en_map en) = Some m) -> covers en L ci (travS zero s en MIM [PNest] ci PayNone).
Proof.
  induction s as [es order IH] using structure_ind2. intros Hw. inversion Hw as [es' order' Hn Hp Hsp Hsub]; subst.
  assert (HLe : forall e, In e es -> exists Le, NoDup Le /\ (forall x, In x Le <-> match e_struct e with None => x = [] | Some s' => exists e', Leaf s' x e' end) /\
     forall en ci, (forall x, In x Le -> exists m, cmap_get (ci ++ x) (en_map en) = Some m) -> covers en Le ci (travD zero en (info zero e) (subT zero e) [] MIM [PNest] ci PayNone)).
  { intros e He. destruct (e_struct e) as [s'|] eqn:Es.
    - destruct (IH e s' He Es (Hsub e s' He Es)) as (L & H1 & H2 & H3). exists L. split; [exact H1|]. split; [exact H2|]. intros en ci Hx. unfold subT. rewrite Es. cbn [travD]. apply covers_wrap. now apply H3.
    - exists [[]]. split; [repeat constructor; simpl; tauto|]. split; [intros x; simpl; split; [intros [<-|[]]; reflexivity|intros ->; now left]|]. intros en ci Hx. unfold subT. rewrite Es. cbn [travD]. apply covers_wrap.
      destruct (Hx [] (or_introl eq_refl)) as (m & Hm). intros sg. exists (RIdx m). rewrite app_nil_r in Hm. cbn [dispatch]. unfold mlift, imget. cbn [snd]. rewrite Hm. split; [reflexivity|]. simpl. unfold posof. now rewrite !app_nil_r, Hm. }
  destruct (Forall_exists2 _ es HLe) as (Ls & HF). pose proof (Forall2_len _ _ _ HF) as Hlen.
  set (LE := List.combine es Ls). set (gl := fun eL : entry * list cidx => map (cons (KS (e_name (fst eL)))) (Ld (e_dims (fst eL)) (snd eL))).
  exists (flat_map gl LE).
  assert (Hin : forall e Le, In (e, Le) LE -> In e es) by (intros e Le Hi; eapply in_combine_l; eauto).
  assert (HLEn : NoDup (map e_name (map fst LE))) by (unfold LE; rewrite combine_fst by exact Hlen; exact Hn).
  assert (Hname : forall a a', In a LE -> In a' LE -> e_name (fst a) = e_name (fst a') -> a = a').
  { clear -HLEn. induction LE as [|b LE IH]; simpl; [tauto|]. simpl in HLEn. apply NoDup_cons_iff in HLEn as [Hb HLEn].
    assert (K : forall a, In a LE -> e_name (fst b) = e_name (fst a) -> False) by (intros a Ha E; apply Hb; rewrite E; apply in_map; now apply in_map).
    intros a a' [<-|Ha] [<-|Ha'] E; [reflexivity|exfalso; eapply K; eauto|exfalso; eapply (K a); eauto|auto]. }
  split; [|split].
  - apply NoDup_flat_map_intro.
    + rewrite map_map in HLEn. exact (NoDup_map_inv _ _ HLEn).
    + intros [e Le] Hi. apply NoDup_map_cons, NoDup_Ld. exact (proj1 (Forall2_combine _ _ _ _ _ HF Hi)).
    + intros a a' b Ha Ha' Hb Hb'. apply in_map_iff in Hb as (x & <- & _). apply in_map_iff in Hb' as (y & E & _). apply Hname; auto. congruence.
  - intros x. rewrite in_flat_map. split.
    + intros ([e Le] & Hi & Hx). apply in_map_iff in Hx as (y & <- & Hy). cbn [fst snd] in *. destruct (Forall2_combine _ _ _ _ _ HF Hi) as (_ & Hm & _). apply in_Ld in Hy as (idx & z & Hd & -> & Hz). apply Hm in Hz. destruct (e_struct e) as [s'|] eqn:Es.
      * destruct Hz as (e' & Hl). exists e'. eapply Leaf_sub; eauto.
      * subst z. rewrite app_nil_r. exists e. apply Leaf_prim; eauto.
    + intros (e0 & Hl).
      assert (K : forall e, In e es -> exists Le, In (e, Le) LE /\ (forall x, In x Le <-> match e_struct e with None => x = [] | Some s' => exists e', Leaf s' x e' end)).
      { intros e He. apply In_nth_error in He as (j & Hj). destruct (Forall2_nth _ _ _ HF j e Hj) as (Le & J2 & _ & Hm & _). exists Le. split; [|exact Hm]. apply (nth_error_In _ j). now apply combine_nth_error. }
      inversion Hl as [s0 e idx He Es Hd|s0 e idx s' ci e' He Es Hd Hl']; subst; destruct (K _ He) as (Le & Hi & Hm); rewrite Es in Hm.
      * exists (e0, Le). split; [exact Hi|]. apply in_map. apply in_Ld. exists idx, []. rewrite app_nil_r. repeat split; auto. now apply Hm.
      * exists (e, Le). split; [exact Hi|]. apply in_map. apply in_Ld. exists idx, ci. repeat split; auto. apply Hm. eauto.
  - intros en ci Hx. intros sg. rewrite travS_eq. cbn [travS_body]. rewrite mwrap_snd. rewrite sdictT_list by exact Hn. cbn [s_entries].
    unfold mdict, mbind at 1. rewrite mmapM_pure.
    2:{ intros y Hy. apply in_map_iff in Hy as (e & <- & He). cbn [fst snd]. apply pure_bind; [|intros; apply pure_ret]. rewrite travE_eq. apply pure_travD; [apply subT_pure|reflexivity]. }
    set (f0 := fun e => match snd (travE zero e en MIM [PNest] (ci ++ [KS (e_name e)]) PayNone sg) with Ok r => (e_name e, r) | Err _ => (e_name e, RNone) end).
    assert (G : forall e Le, In (e, Le) LE -> snd (travE zero e en MIM [PNest] (ci ++ [KS (e_name e)]) PayNone sg) = Ok (snd (f0 e)) /\ positions (snd (f0 e)) = flat_map (fun x => posof en (ci ++ x)) (gl (e, Le))).
    { intros e Le Hi. destruct (covers_travD en (info zero e) (subT zero e) Le (subT_pure zero e) (e_dims e) (ci ++ [KS (e_name e)])) with (sg := sg) as (r & E & Hpos).
      - intros idx Hd. apply (proj2 (proj2 (Forall2_combine _ _ _ _ _ HF Hi))). intros y Hy. destruct (Hx (KS (e_name e) :: map KI idx ++ y)) as (m & Hm); [|exists m; rewrite <- !app_assoc; exact Hm].
        apply in_flat_map. exists (e, Le). split; [exact Hi|]. apply in_map. apply in_Ld. eauto.
      - unfold f0. rewrite travE_eq, E. cbn [snd]. split; [reflexivity|]. rewrite Hpos. unfold gl. cbn [fst snd]. rewrite flat_map_map_. apply flat_map_ext. intros x. now rewrite <- app_assoc. }
    assert (Es : es = map fst LE) by (unfold LE; now rewrite combine_fst).
    rewrite (proj2 (rmapM_Ok _ _ (map f0 es))).
    + cbn [snd]. unfold mret. cbn [snd wrapE]. eexists. split; [reflexivity|]. rewrite pydict_id.
      2:{ rewrite map_map. rewrite (map_ext _ e_name); [exact Hn|]. intros e. unfold f0. destruct (snd _); reflexivity. }
      cbn [positions]. rewrite flat_map_map_, flat_map_flat_map, Es, flat_map_map_. clear -G. induction LE as [|[e Le] LE IH]; [reflexivity|]. simpl. rewrite IH by (intros; apply G; now right). f_equal. apply (G e Le). now left.
    + apply Forall2_of_combine; [now rewrite !map_length|]. intros a b Hi. apply In_nth_error in Hi as (j & Hj). apply combine_nth_error in Hj as (J1 & J2). rewrite nth_error_map_ in J1. rewrite nth_error_map_ in J2. destruct (nth_error es j) as [e|] eqn:Ee; [|discriminate]. cbn [option_map] in *. injection J1 as <-. injection J2 as <-.
      assert (HI : exists Le, In (e, Le) LE) by (destruct (Forall2_nth _ _ _ HF j e Ee) as (Le & J2 & _); exists Le; apply (nth_error_In _ j); now apply combine_nth_error).
      destruct HI as (Le & Hi). destruct (G e Le Hi) as (E & _). cbn [fst snd]. unfold mbind. destruct (travE zero e en MIM [PNest] (ci ++ [KS (e_name e)]) PayNone sg) as [s1 q] eqn:Eq. cbn [snd] in E. rewrite E. unfold mret. cbn [snd].
      unfold f0 at 2. rewrite Eq. cbn [snd]. rewrite E. unfold f0. rewrite Eq. cbn [snd]. rewrite E. reflexivity.
Qed.

Theorem nest_positions s c : Wf s -> casadi_structure s = Ok c ->
  exists r, i_get zero s [PNest] = Ok r /\ Permutation (positions r) (seq 0 (cs_size c)).
Proof.
  intros Hw Hc. destruct (nest_covers s Hw) as (L & Hn & Hm & HC).
  destruct (HC (num_env c) []) with (sg := @empty_state T) as (r & E & Hp).
  - intros x Hx. apply Hm in Hx as (e & Hl). destruct (map_get_leaf s c x e Hw Hc Hl) as (m & Em & _). exists m. exact Em.
  - exists r. split; [unfold i_get, index_getter; rewrite Hc; cbn [rbind]; unfold num_env in E; rewrite E; reflexivity|].
    rewrite Hp. rewrite <- (flat_partition s c Hw Hc). destruct (canonical_leaves s Hw) as (Hn' & Hm').
    change (fun x => posof (num_env c) ([] ++ x)) with (fun ci => match cmap_get ci (cs_map c) with Some m => dm_nz m | None => [] end).
    apply Permutation_flat_map. apply NoDup_Permutation; [exact Hn|exact Hn'|]. intros x. rewrite Hm, Hm'. reflexivity.
Qed.

Theorem nest_copy s c (st1 st2 : pstate) : Obj s c st1 -> Obj s c st2 -> NoSymm s ->
  exists R st' x, getitem zero s (num_env c) [PNest] st1 = Ok R /\
    setitem zero s (num_env c) [PNest] (pay_of R) st2 = (st', Ok x) /\ ps_master st' = ps_master st1.
Proof.
  intros H1 H2 Hns. destruct (nest_positions s c (ob_wf _ _ _ H1) (ob_built _ _ _ H1)) as (r & Hr & Hp).
  assert (Hpi : @initial T [PNest]) by (repeat constructor).
  assert (Hn : NoDup (positions r)) by (eapply Permutation_NoDup; [apply Permutation_sym; exact Hp|apply seq_NoDup]).
  destruct (assign_copy s c st1 st2 [PNest] r H1 H2 Hns Hpi Hr Hn) as (R & st' & x & E1 & E2 & El & Ek).
  exists R, st', x. split; [exact E1|]. split; [exact E2|]. apply nth_error_ext. intros k. rewrite Ek. destruct (in_dec Nat.eq_dec k (positions r)) as [Hk|Hk]; [reflexivity|].
  assert (~ k < cs_size c) by (intros Hlt; apply Hk; eapply Permutation_in; [apply Permutation_sym; exact Hp|apply in_seq; lia]).
  rewrite (proj2 (nth_error_None _ _)), (proj2 (nth_error_None _ _)); [reflexivity| |]; [rewrite (ob_len _ _ _ H1)|rewrite (ob_len _ _ _ H2)]; lia.
Qed.

(** ** What is assigned successfully suits the index *)
Lemma Values_ex (v : list T) r : RvOk r -> below (length v) r -> exists R, Values v r R.
Proof.
  induction r as [| |m|fl|rs IH|rs IH] using rval_ind2; intros Ho Hb; inversion Ho as [m0 Hm|l0 Hl|l0 Hk Hl]; subst.
  - eexists. constructor. apply (vals_Forall2 zero). apply Forall_forall. exact Hb.
  - destruct (Forall_exists2 (Values v) rs) as (L & HL); [|exists (RList L); now constructor]. intros r Hr. rewrite Forall_forall in IH, Hl. apply (IH r Hr); [now apply Hl|]. intros k Hk. apply Hb. simpl. apply in_flat_map. eauto.
  - destruct (Forall_exists2 (fun a b => fst a = fst b /\ Values v (snd a) (snd b)) rs) as (L & HL); [|exists (RDict L); now constructor]. intros r Hr. rewrite Forall_forall in IH, Hl. destruct (IH r Hr) as (R & HR); [now apply Hl| |exists (fst r, R); auto]. intros k Hk'. apply Hb. simpl. apply in_flat_map. eauto.
Qed.

Definition bw (im : @M T rval) (wr : pay -> @M T rval) : Prop :=
  forall sg r, snd (im sg) = Ok r -> forall p st st' x, PayOk p -> wr p st = (st', Ok x) ->
    forall v, below (length v) r -> exists R, Receives v r p R.

Lemma bw_wrap im wr : bw im wr -> bw (mwrap im) (fun p => mwrap (wr p)).
Proof.
  intros H sg r Hr p st st' x Hp Hw. rewrite mwrap_snd in Hr. destruct (snd (im sg)) as [y|] eqn:E; [|discriminate]. injection Hr as ->.
  apply (proj1 (mwrap_Ok _ _ _ _)) in Hw. exact (H sg r E p st st' x Hp Hw).
Qed.
Lemma bw_ext im im' wr wr' : (forall sg, im sg = im' sg) -> (forall p st, wr p st = wr' p st) -> bw im wr -> bw im' wr'.
Proof. intros E1 E2 H sg r Hr p st st' x Hp Hw. rewrite <- E1 in Hr. rewrite <- E2 in Hw. exact (H sg r Hr p st st' x Hp Hw). Qed.

Lemma bw_dispatch en ci ex ei : env_ok en -> is_symm ei = false ->
  Forall (fun p => match p with PFun _ => False | _ => True end) (extra ex) ->
  bw (dispatch zero en MIM PayNone ci ex ei) (fun p => dispatch zero en MSet p ci ex ei).
Proof.
  intros (Hp & Hk & Hok) Hs Hex sg r. cbn [dispatch]. unfold mlift, imget. simpl. destruct (cmap_get ci (en_map en)) as [mi|] eqn:Em; [|discriminate].
  intros E. destruct (pei_ok _ _ _ _ _ (Hok _ _ Em) Hex E) as (m & -> & Hm & _).
  intros p st st' x Hpo Hw v Hb. unfold setter, mbind, mlift in Hw. destruct (to_mtype p) as [M|] eqn:EM; [|discriminate]. rewrite Em, E, Hs in Hw. unfold master_set in Hw. rewrite Hk in Hw.
  assert (Hpk : pay_ok p) by (destruct Hpo; simpl; auto).
  rewrite (vec_set_spec zero (ps_master st) m M Hm (to_mtype_ok p M Hpk EM)) in Hw.
  assert (HF : fits M (dm_sp m)).
  { apply fits_bool. match type of Hw with context [if ?b && _ then _ else _] => destruct b; [reflexivity|simpl in Hw; discriminate] end. }
  eexists. eapply Rc_mat; eauto.
Qed.

Lemma item_ok (p : pay) j q : PayOk p -> item p j = Some q -> PayOk q.
Proof.
  intros Hp. destruct p; simpl; try (intros [= <-]; exact Hp).
  - assert (Hl : Forall PayOk l) by (inversion Hp; assumption). rewrite Forall_forall in Hl. intros H. apply Hl. eapply nth_error_In; eauto.
  - intros [= <-]. inversion Hp; assumption.
Qed.

Lemma mmapM_steps {A B} (g : A -> @M T B) l : forall st st' xs, mmapM g l st = (st', Ok xs) -> forall a, In a l -> exists s1 s2 x, g a s1 = (s2, Ok x).
Proof.
  induction l as [|b l IH]; intros st st' xs H a Ha; [destruct Ha|]. destruct Ha as [<-|Ha].
  - simpl in H. unfold mbind in H. destruct (g b st) as [s1 [y|]] eqn:E; [eauto|discriminate].
  - simpl in H. unfold mbind in H. destruct (g b st) as [s1 [y|]] eqn:E; [|discriminate]. destruct (mmapM g l s1) as [s2 [ys|]] eqn:E2; [|discriminate]. eapply IH; eauto.
Qed.

Lemma bw_many {A} (ks : list A) (im : A -> @M T rval) (wr : A -> pay -> @M T rval) (step : pay -> A -> @M T rval) :
  (forall a, In a ks -> pure (im a)) -> (forall a, In a ks -> bw (im a) (wr a)) ->
  (forall j a p st st' x, nth_error ks j = Some a -> step p a st = (st', Ok x) -> exists q, item p j = Some q /\ wr a q st = (st', Ok x)) ->
  bw (rs <- mmapM im ks ;; mret (RList rs)) (fun p => rs <- mmapM (step p) ks ;; mret (RList rs)).
Proof.
  intros Hp Hf Hs sg r H p st st' x Hpo Hw v Hb. unfold mbind at 1 in H. rewrite mmapM_pure in H by exact Hp.
  destruct (rmapM _ _) as [rs|] eqn:E; [|discriminate]. simpl in H. injection H as <-. apply rmapM_Ok in E. pose proof (Forall2_len _ _ _ E) as Hlen.
  unfold mbind in Hw. destruct (mmapM (step p) ks st) as [s1 [xs|]] eqn:Em; [|discriminate].
  destruct (Forall_exists2 (fun ir R => exists q, item p (fst ir) = Some q /\ Receives v (snd ir) q R) (List.combine (seq 0 (length rs)) rs)) as (L & HL); [|exists (RList L); now constructor].
  intros [i r] Hin. apply In_nth_error in Hin as (j & Hj). apply combine_nth_error in Hj as (J1 & J2). rewrite seq_nth_error in J1 by (eapply nth_error_Some_lt_; eauto). injection J1 as <-. cbn [fst snd].
  destruct (nth_error ks j) as [a|] eqn:Ea; [|apply nth_error_None in Ea; apply nth_error_Some_lt_ in J2; lia].
  destruct (mmapM_steps _ _ _ _ _ Em a (nth_error_In _ _ Ea)) as (u1 & u2 & y & Eu). destruct (Hs j a p u1 u2 y Ea Eu) as (q & Hq & Hwq).
  destruct (Forall2_nth _ _ _ E j a Ea) as (r1 & J4 & Hread). assert (r1 = r) by congruence. subst r1.
  destruct (Hf a (nth_error_In _ _ Ea) sg r Hread q u1 u2 y (item_ok _ _ _ Hpo Hq) Hwq v) as (R & HR); [|exists R, q; auto].
  intros k Hk. apply Hb. simpl. apply in_flat_map. exists r. split; [eapply nth_error_In; eauto|exact Hk].
Qed.

Lemma bw_dict (d : list (string * clos)) (im : string * clos -> @M T rval) (wr : string * clos -> pay -> @M T rval) :
  NoDup (map fst d) -> (forall a, In a d -> pure (im a)) -> (forall a, In a d -> bw (im a) (wr a) /\ fw (im a) (wr a)) ->
  bw (mdict (mmapM (fun a => r <- im a ;; mret (fst a, r)) d))
     (fun p => match p with
       | PayDict kv => mdict (mmapM (fun x => f <- look d (fst x) ;; r <- wr (fst x, f) (snd x) ;; mret (fst x, r)) kv)
       | _ => mdict (mmapM (fun a => r <- wr a p ;; mret (fst a, r)) d) end).
Proof.
  intros Hnd Hp Hf sg r H p st st' x Hpo Hw v Hbd. unfold mdict, mbind at 1 in H. rewrite mmapM_pure in H by (intros a Ha; apply pure_bind; [now apply Hp|intros; apply pure_ret]).
  match type of H with context [rmapM ?g ?l0] => destruct (rmapM g l0) as [bs|] eqn:E end; [|discriminate]. simpl in H. injection H as <-. apply rmapM_Ok in E.
  assert (Hb : Forall2 (fun a b => fst b = fst a /\ snd (im a sg) = Ok (snd b)) d bs).
  { eapply Forall2_impl; [|exact E]. intros a b. unfold mbind. destruct (im a sg) as [s1 [r1|]]; [|discriminate]. intros [= <-]. auto. }
  assert (Hk : map fst bs = map fst d).
  { clear -Hb. induction Hb as [|x b d bs [H _] HF IH]; [reflexivity|]. simpl. f_equal; [exact H|exact IH]. }
  rewrite pydict_id in * by (rewrite Hk; exact Hnd).
  assert (Hbe : forall b, In b bs -> below (length v) (snd b)) by (intros b Hb1 k Hk1; apply Hbd; simpl; apply in_flat_map; eauto).
  assert (Hnot : (forall kv, p <> PayDict kv) -> (exists s1 s2 xs, mmapM (fun a => r <- wr a p ;; mret (fst a, r)) d s1 = (s2, Ok xs)) -> exists R, Receives v (RDict bs) p R).
  { intros Hnp (s1 & s2 & xs & Em). destruct (Forall_exists2 (fun a b => fst a = fst b /\ Receives v (snd a) p (snd b)) bs) as (L & HL).
    - intros b Hb1. destruct (Forall2_In_r _ _ _ _ Hb Hb1) as (a & Ha & Hka & Hread). destruct (mmapM_steps _ _ _ _ _ Em a Ha) as (u1 & u2 & y & Eu).
      unfold mbind in Eu. destruct (wr a p u1) as [u3 [z|]] eqn:Ew; [|discriminate]. destruct (proj1 (Hf a Ha) sg _ Hread p u1 u3 z Hpo Ew v (Hbe b Hb1)) as (R & HR). exists (fst b, R). auto.
    - exists (RDict L). apply Rc_all; [|exact HL]. destruct p; auto. now apply (Hnp l). }
  destruct p as [|y|m|l|kv|p'].
  5:{ assert (Hkn : NoDup (map fst kv)) by (inversion Hpo; assumption). assert (Hkf : Forall (fun kv => PayOk (snd kv)) kv) by (inversion Hpo; assumption). unfold mdict, mbind at 1 in Hw. destruct (mmapM _ kv st) as [s1 [xs|]] eqn:Em; [|discriminate].
    assert (Hst : forall k q, In (k, q) kv -> exists f u1 u2 z, In (k, f) d /\ wr (k, f) q u1 = (u2, Ok z)).
    { intros k q Hq. destruct (mmapM_steps _ _ _ _ _ Em (k, q) Hq) as (u1 & u2 & y & Eu). cbn [fst snd] in Eu. unfold look in Eu. destruct (dict_get k d) as [f|] eqn:Ef; [|discriminate].
      unfold mbind, mret in Eu. destruct (wr (k, f) q u1) as [u3 [z|]] eqn:Ew; [|discriminate]. exists f, u1, u3, z. split; [now apply dict_get_In|exact Ew]. }
    destruct (Forall_exists2 (fun a b => fst a = fst b /\ ((exists q, dict_get (fst a) kv = Some q /\ Receives v (snd a) q (snd b)) \/ (dict_get (fst a) kv = None /\ Values v (snd a) (snd b)))) bs) as (L & HL).
    - intros b Hb1. destruct (Forall2_In_r _ _ _ _ Hb Hb1) as (a & Ha & Hka & Hread). destruct (dict_get (fst b) kv) as [q|] eqn:Eq.
      + pose proof (dict_get_In _ _ _ Eq) as Hq. destruct (Hst _ _ Hq) as (f & u1 & u2 & z & Hf1 & Hw1).
        assert (Ea : a = (fst b, f)).
        { destruct a as [ka fa]. cbn [fst] in Hka. subst ka. pose proof (dict_get_of_In _ _ _ Hnd Ha). pose proof (dict_get_of_In _ _ _ Hnd Hf1). congruence. }
        rewrite Ea in Ha, Hread. rewrite Forall_forall in Hkf.
        destruct (proj1 (Hf _ Ha) sg _ Hread q u1 u2 z (Hkf _ Hq) Hw1 v (Hbe b Hb1)) as (R & HR). exists (fst b, R). split; [reflexivity|]. left. eauto.
      + destruct (Values_ex v (snd b) (proj1 (proj2 (Hf a Ha) sg _ Hread)) (Hbe b Hb1)) as (R & HR). exists (fst b, R). auto.
    - exists (RDict L). apply Rc_dict; [exact Hkn| |exact HL]. intros k Hk1. apply in_map_iff in Hk1 as ([k' q] & <- & Hq). cbn [fst]. destruct (Hst _ _ Hq) as (f & _ & _ & _ & Hf1 & _). rewrite Hk. apply (in_map fst _ _ Hf1). }
  all: apply Hnot; [discriminate|]; unfold mdict, mbind at 1 in Hw; match type of Hw with context [mmapM ?g ?l ?s] => destruct (mmapM g l s) as [s1 [xs|]] eqn:Em end; [eauto|discriminate].
Qed.

Definition bwclos (f : clos) : Prop := forall en pi ci, env_ok en -> initial pi -> no_set pi ->
  bw (f en MIM pi ci PayNone) (fun p => f en MSet pi ci p).

Lemma bw_travD en ei sub : env_ok en -> ei_symm ei = false -> (forall f, sub = Some f -> bwclos f /\ pclos f) ->
  forall dims pi ci, initial pi -> no_set pi ->
  bw (travD zero en ei sub dims MIM pi ci PayNone) (fun p => travD zero en ei sub dims MSet pi ci p).
Proof.
  intros Hen Hs Hsub. induction dims as [|d ds IH]; intros pi ci Hpi Hset.
  - cbn [travD]. apply (bw_wrap _ (fun p => match pi with [] => _ | _ => _ end)).
    destruct pi as [|x pi]; [apply (bw_dispatch en ci None (Some ei)); auto; constructor|].
    destruct sub as [f|]; [now apply (Hsub f eq_refl)|]. apply (bw_dispatch en ci (Some (x :: pi)) (Some ei)); auto. now apply initial_no_fun.
  - assert (Hmany : forall n rest, initial rest -> no_set rest ->
       bw (rs <- mmapM (fun k => match k with
                     | KS _ => merr EType
                     | KI i => p' <- mlift (payloadUnpack PayNone k) ;;
                               travD zero en ei sub ds MIM rest (ci ++ [KI (canonical i d)]) p'
                     end) (map KI (map Z.of_nat (seq 0 n))) ;; mret (RList rs))
          (fun p => rs <- mmapM (fun k => match k with
                     | KS _ => merr EType
                     | KI i => p' <- mlift (payloadUnpack p k) ;;
                               travD zero en ei sub ds MSet rest (ci ++ [KI (canonical i d)]) p'
                     end) (map KI (map Z.of_nat (seq 0 n))) ;; mret (RList rs))).
    { intros n rest Hr Hrs. apply (bw_many _ _ (fun k q => match k with KS _ => merr EType | KI i => travD zero en ei sub ds MSet rest (ci ++ [KI (canonical i d)]) q end)
        (fun p k => match k with KS _ => merr EType | KI i => p' <- mlift (payloadUnpack p k) ;; travD zero en ei sub ds MSet rest (ci ++ [KI (canonical i d)]) p' end)).
      - intros k Hk. rewrite map_map in Hk. apply in_map_iff in Hk as (j & <- & _). apply pure_bind; [apply pure_lift|]. intros. apply pure_travD; [intros f Hf; now apply Hsub|reflexivity].
      - intros k Hk. rewrite map_map in Hk. apply in_map_iff in Hk as (j & <- & _). exact (IH rest _ Hr Hrs).
      - intros j k p st st' x Hj Hq. rewrite map_map, nth_error_map_ in Hj. destruct (nth_error (seq 0 n) j) as [j'|] eqn:Ej; [|discriminate].
        assert (j' = j) as -> by (pose proof (nth_error_Some_lt_ _ _ _ Ej) as Hl; rewrite seq_length in Hl; rewrite seq_nth_error in Ej by exact Hl; congruence).
        injection Hj as <-. rewrite unpack_item in Hq. destruct (item p j) as [q|]; [|discriminate]. exists q. split; [reflexivity|exact Hq]. }
    assert (Hslc : forall sl rest, initial_slice sl -> initial rest -> no_set rest ->
       bw (l <- mlift (slice_range sl d) ;; rs <- mmapM (fun k => match k with
                     | KS _ => merr EType
                     | KI i => p' <- mlift (payloadUnpack PayNone k) ;;
                               travD zero en ei sub ds MIM rest (ci ++ [KI (canonical i d)]) p'
                     end) (map KI l) ;; mret (RList rs))
          (fun p => l <- mlift (slice_range sl d) ;; rs <- mmapM (fun k => match k with
                     | KS _ => merr EType
                     | KI i => p' <- mlift (payloadUnpack p k) ;;
                               travD zero en ei sub ds MSet rest (ci ++ [KI (canonical i d)]) p'
                     end) (map KI l) ;; mret (RList rs))).
    { intros sl rest Hsl Hr Hrs. destruct (slice_range sl d) as [l|] eqn:E; [|intros sg r H; discriminate]. destruct (initial_positions _ _ _ Hsl E) as (k & ->).
      exact (Hmany k rest Hr Hrs). }
    cbn [travD]. destruct pi as [|x rest].
    + apply (bw_wrap _ (fun p => l <- mlift (slice_range slice_all d) ;; _)). apply Hslc; [split; left; reflexivity|constructor|constructor].
    + apply Forall_cons_iff in Hpi as [Hx Hr]. apply Forall_cons_iff in Hset as [_ Hrs]. destruct x; try contradiction; try (intros st R H; discriminate).
      * apply (bw_wrap _ (fun p => travD zero en ei sub ds MSet rest (ci ++ [KI (canonical i d)]) p)). now apply IH.
      * apply (bw_wrap _ (fun p => l <- mlift (slice_range s d) ;; _)). now apply Hslc.
      * apply (bw_wrap _ (fun p => rs <- mmapM _ _ ;; mret (RList rs))). apply Hmany; repeat constructor.
Qed.

Lemma bw_travS_body d keys : NoDup (map fst d) -> (forall k f, In (k, f) d -> bwclos f /\ fwclos f /\ pclos f) ->
  forall en pi ci, env_ok en -> initial pi -> no_set pi ->
  bw (travS_body zero d keys en MIM pi ci PayNone) (fun p => travS_body zero d keys en MSet pi ci p).
Proof.
  intros Hnd Hd en pi ci Hen Hpi Hset. destruct pi as [|x rest]; cbn [travS_body].
  - apply (bw_wrap _ (fun p => dispatch zero en MSet p ci None None)). apply (bw_dispatch en ci None None); auto; constructor.
  - apply Forall_cons_iff in Hpi as [Hx Hr]. apply Forall_cons_iff in Hset as [Hxs Hrs].
    assert (Hlook : forall k, bw (f <- look d k ;; f en MIM rest (ci ++ [KS k]) PayNone) (fun p => f <- look d k ;; f en MSet rest (ci ++ [KS k]) p)).
    { intros k. unfold look. destruct (dict_get k d) as [f|] eqn:E; [|intros sg r H; discriminate].
      exact (proj1 (Hd k f (dict_get_In _ _ _ E)) en rest (ci ++ [KS k]) Hen Hr Hrs). }
    assert (Hdict : forall rest, initial rest -> no_set rest ->
       bw (mdict (mmapM (fun x => r <- snd x en MIM rest (ci ++ [KS (fst x)]) PayNone ;; mret (fst x, r)) d))
          (fun p => match p with
    | PayDict kv =>
        mdict (mmapM (fun x => f <- look d (fst x) ;;
                               r <- f en MSet rest (ci ++ [KS (fst x)]) (snd x) ;; mret (fst x, r)) kv)
    | _ =>
        mdict (mmapM (fun x => r <- snd x en MSet rest (ci ++ [KS (fst x)]) p ;; mret (fst x, r)) d)
    end)).
    { clear rest Hr Hrs Hlook. intros rest Hr Hrs.
      apply (bw_dict d (fun x => snd x en MIM rest (ci ++ [KS (fst x)]) PayNone) (fun x q => snd x en MSet rest (ci ++ [KS (fst x)]) q)); [exact Hnd| |].
      - intros [k f] Hin. now apply (Hd k f).
      - intros [k f] Hin. destruct (Hd k f Hin) as (H1 & H2 & _). cbn [fst snd]. split; [now apply H1|now apply H2]. }
    destruct x; try contradiction; try (intros st R H; discriminate).
    + apply (bw_wrap _ (fun p => f <- look d s ;; f en MSet rest (ci ++ [KS s]) p)). now apply Hlook.
    + apply (bw_wrap _ (fun p => rs <- mmapM _ _ ;; mret (RList rs))).
      apply (bw_many (enum keys) _ (fun x q => f <- look d (snd x) ;; f en MSet rest (ci ++ [KS (snd x)]) q)
        (fun p x => f <- look d (snd x) ;; p' <- mlift (payloadUnpack p (KI (fst x))) ;; f en MSet rest (ci ++ [KS (snd x)]) p')).
      * intros [i k] _. apply pure_look_bind. intros f Hf. apply pure_bind; [apply pure_lift|]. intros. now apply (Hd _ _ Hf).
      * intros [i k] _. cbn [fst snd]. exact (Hlook k).
      * intros j [i k] p st st' x Hj Hq. apply enum_nth in Hj as [Hj _]. cbn [fst snd] in *. subst i. rewrite unpack_item in Hq. unfold look in *. destruct (dict_get k d); [|discriminate].
        destruct (item p j) as [q|]; [|discriminate]. exists q. split; [reflexivity|exact Hq].
    + apply (bw_wrap _ (fun p => match p with PayDict kv => _ | _ => _ end)). now apply Hdict.
    + apply (bw_wrap _ (fun p => match p with PayDict kv => _ | _ => _ end)). apply Hdict; repeat constructor.
Qed.

Lemma bw_travS s : NoSymm s -> bwclos (travS zero s).
Proof.
  induction s as [es order IH] using structure_ind2. intros Hns en pi ci Hen Hpi Hset sg r. rewrite !travS_eq.
  revert sg r. apply (bw_travS_body (sdictT zero (mkStruct es order)) (s_keys (mkStruct es order))); [apply NoDup_pydict| |exact Hen|exact Hpi|exact Hset].
  intros k f Hin. unfold sdictT in Hin. apply in_pydict in Hin. simpl in Hin. apply in_map_iff in Hin as (e & [= <- <-] & He).
  inversion Hns as [es' order' H1 H2]; subst.
  assert (Hp : pclos (travE zero e)).
  { intros en' md' pi' ci' p' Hm'. rewrite travE_eq. apply pure_travD; [|exact Hm']. apply subT_pure. }
  split; [|split; [|exact Hp]].
  - intros en' pi' ci' Hen' Hpi' Hset'. eapply bw_ext; [intros; symmetry; rewrite travE_eq; reflexivity|intros; symmetry; rewrite travE_eq; reflexivity|].
    apply (bw_travD en' (info zero e) (subT zero e) Hen'); auto; [now apply H1|]. unfold subT. intros f. destruct (e_struct e) as [s'|] eqn:Es; [|discriminate]. intros [= <-]. split; [eapply IH; eauto|apply pure_travS].
  - intros en' pi' ci' Hen' Hpi'. eapply fw_ext; [intros; symmetry; rewrite travE_eq; reflexivity|intros; symmetry; rewrite travE_eq; reflexivity|].
    apply (fw_travD en' (info zero e) (subT zero e) Hen'); auto; [now apply H1|]. unfold subT. intros f. destruct (e_struct e) as [s'|] eqn:Es; [|discriminate]. intros [= <-]. split; [apply fw_travS; eauto|apply pure_travS].
Qed.

Theorem assign_iff s c (st : pstate) pi r p :
  Obj s c st -> NoSymm s -> initial pi -> no_set pi -> i_get zero s pi = Ok r -> NoDup (positions r) -> PayOk p ->
  ((exists st' x, setitem zero s (num_env c) pi p st = (st', Ok x)) <-> exists R, Receives (ps_master st) r p R).
Proof.
  intros Ho Hns Hpi Hset Hr Hn Hp. split.
  - intros (st' & x & E). destruct (i_get_run zero s c pi r (ob_built _ _ _ Ho) Hr) as (sg & Eg).
    apply (bw_travS s Hns (num_env c) pi [] (num_env_ok s c (ob_wf _ _ _ Ho) (ob_built _ _ _ Ho)) Hpi Hset empty_state r (f_equal snd Eg) p st st' x Hp E).
    rewrite (ob_len _ _ _ Ho). apply (gin_below _ _ r). apply (i_get_in zero s c pi r (ob_wf _ _ _ Ho) (ob_built _ _ _ Ho) (initial_no_fun' _ Hpi) Hr).
  - intros (R & HR). destruct (assign_reads s c st pi r p R Ho Hns Hpi Hr Hn HR) as (st' & x & E & _). eauto.
Qed.
End P.
