(** Sequences of assignments to a structure object; construction from a dict or from
    expressions (C20, C35). *)
From Verif Require Import PyBase IndexModel DMModel StructModel StructSpec PowerModel PowerSpec
  IndexProofs StructProofs LayoutProofs LayoutThms LayoutExamples DMProofs PowerProofs PowerThms SliceProofs PowerThms2 PowerThms3 PowerThms4
  EntryModel EntrySpec EntryProofs StructsModel StructsSpec.
Open Scope nat_scope.

Section P.
Context {T : Type} (zero : T).
Notation rval := (rval T).
Notation pel := (pel T).
Notation pay := (pay T).
Notation env := (env T).
Notation pstate := (pstate T).
Notation Holds := (Holds zero).

Definition apart (a b : cidx) : Prop := forall r r', a ++ r <> b ++ r'.
Lemma apart_sym a b : apart a b -> apart b a.
Proof. intros H r r' E. symmetry in E. exact (H _ _ E). Qed.

(** One successful assignment at a canonical index. *)
Lemma write_one s c (st st' : pstate) ci e v r :
  Obj s c st -> At s ci e -> e_symm e = false -> pay_ok v ->
  setitem zero s (num_env c) (pidx ci) v st = (st', Ok r) ->
  exists m M, cmap_get ci (cs_map c) = Some m /\ to_mtype v = Ok M /\ fits M (dm_sp m) /\
    st' = with_master st (vec_set_list (ps_master st) (dm_nz m) (map (fit zero M (dm_sp m)) (sp_pat (dm_sp m)))).
Proof.
  intros Ho Ha Hs Hv H. pose proof (ob_wf _ _ _ Ho) as Hw.
  destruct (cmap_get ci (cs_map c)) as [m|] eqn:Em.
  - destruct (to_mtype v) as [M|x] eqn:EM.
    + destruct (setitem_at zero s c st ci e m v M Ho Ha Hs Em Hv EM) as [[Hf E]|[_ E]]; rewrite E in H; [|discriminate].
      injection H as <- <-. eauto 6.
    + rewrite (setitem_at_err zero s c st ci e m v x Ho Ha Em EM) in H. discriminate.
  - unfold setitem in H. rewrite <- (app_nil_r (pidx ci)), (travS_at zero s ci e Ha Hw) in H. cbn [endD] in H.
    rewrite dispatch_None in H by (auto; discriminate). discriminate.
Qed.

Definition wlist (l : list (cidx * pay)) : list (list pel * option pay) := map (fun x => (pidx (fst x), Some (snd x))) l.
Definition writable (s : structure) (x : cidx * pay) : Prop := exists e, At s (fst x) e /\ e_symm e = false /\ pay_ok (snd x).
Definition written (c : cstruct) (l : list (cidx * pay)) (k : nat) : Prop :=
  exists x m, In x l /\ cmap_get (fst x) (cs_map c) = Some m /\ In k (dm_nz m).

Lemma seq_frame s c l : forall st st', Obj s c st -> Forall (writable s) l ->
  write_seq zero s (num_env c) (wlist l) st = (st', true) ->
  Obj s c st' /\ (forall k, ~ written c l k -> nth_error (ps_master st') k = nth_error (ps_master st) k).
Proof.
  induction l as [|[ci v] l IH]; intros st st' Ho Hl H.
  - simpl in H. injection H as ->. auto.
  - cbn [wlist map write_seq fst snd] in H. inversion Hl as [|x l0 (e & Ha & Hs & Hv) Hl']; subst. cbn [fst snd] in *.
    destruct (setitem zero s (num_env c) (pidx ci) v st) as [st1 [r|]] eqn:E1; [|discriminate].
    destruct (write_one s c st st1 ci e v r Ho Ha Hs Hv E1) as (m & M & Hm & HM & Hf & ->).
    destruct (IH _ st' (Obj_with_master s c st _ Ho (vec_set_list_length _ _ _)) Hl' H) as [IH1 IH2].
    split; [exact IH1|]. intros k Hk. rewrite IH2.
    + simpl. apply vec_set_list_other. intros Hin. apply Hk. exists (ci, v), m. split; [now left|auto].
    + intros (x & m' & Hx & Hm' & Hk'). apply Hk. exists x, m'. split; [now right|auto].
Qed.

Lemma pidx_no_fun ci : @no_fun T (pidx ci).
Proof. apply Forall_forall. intros x Hx. apply in_map_iff in Hx as ([n|i] & <- & _); exact I. Qed.

(** Reading depends only on the positions of the index. *)
Lemma getitem_agree s c (st st' : pstate) ci e m : Wf s -> casadi_structure s = Ok c -> At s ci e -> cmap_get ci (cs_map c) = Some m ->
  (forall k, In k (dm_nz m) -> nth_error (ps_master st') k = nth_error (ps_master st) k) ->
  getitem zero s (num_env c) (pidx ci) st' = getitem zero s (num_env c) (pidx ci) st.
Proof.
  intros Hw Hc Ha Hm H. symmetry. eapply (reads_local zero s c st st' (pidx ci) (RIdx m)); [exact Hc|apply pidx_no_fun| |].
  - rewrite (i_get_at zero s c ci e Hw Hc Ha), Hm. reflexivity.
  - exact H.
Qed.

Theorem seq_reads s c l : forall st st', Obj s c st -> Forall (writable s) l ->
  ForallOrdPairs (fun x y => apart (fst x) (fst y)) l ->
  write_seq zero s (num_env c) (wlist l) st = (st', true) ->
  forall ci v, In (ci, v) l -> exists m R, cmap_get ci (cs_map c) = Some m /\
    getitem zero s (num_env c) (pidx ci) st' = Ok (RMat R) /\ Holds v (dm_sp m) R.
Proof.
  induction l as [|[ci v] l IH]; intros st st' Ho Hl Hp H ci0 v0 Hin; [destruct Hin|].
  cbn [wlist map write_seq fst snd] in H. inversion Hl as [|x l0 Hwr Hl']; subst. destruct Hwr as (e & Ha & Hs & Hv). cbn [fst snd] in *.
  inversion Hp as [|x l0 Hap Hp']; subst. cbn [fst] in Hap.
  destruct (setitem zero s (num_env c) (pidx ci) v st) as [st1 [r|]] eqn:E1; [|discriminate].
  destruct (write_one s c st st1 ci e v r Ho Ha Hs Hv E1) as (m & M & Hm & HM & Hf & Est1).
  assert (Ho1 : Obj s c st1) by (subst; apply Obj_with_master; [exact Ho|apply vec_set_list_length]).
  destruct Hin as [[= <- <-]|Hin]; [|eapply IH; eauto].
  pose proof (ob_wf _ _ _ Ho) as Hw. pose proof (ob_built _ _ _ Ho) as Hc.
  assert (Hi' : i_get zero s (@pidx T ci) = Ok (RIdx m)) by (rewrite (i_get_at zero s c ci e Hw Hc Ha), Hm; reflexivity).
  destruct (read_after_write zero s c st ci e m v M st1 r Ho Ha Hs Hi' Hv HM E1) as (_ & R & HR & H1 & H2 & H3).
  exists m, R. split; [exact Hm|]. split; [|exists M; auto].
  rewrite <- HR. destruct (seq_frame s c l st1 st' Ho1 Hl' H) as [_ Hfr].
  eapply getitem_agree; eauto. intros k Hk. apply Hfr. intros ([ci' v'] & m' & Hx & Hm' & Hk'). cbn [fst] in *.
  rewrite Forall_forall in Hap. apply (at_disjoint s c ci ci' m m' k Hw Hc Hm Hm'); auto. exact (Hap _ Hx).
Qed.

(** The result does not depend on what the written positions held before. *)
Theorem seq_agree s c l : forall (a b a' : pstate), Obj s c a -> Obj s c b -> Forall (writable s) l ->
  write_seq zero s (num_env c) (wlist l) a = (a', true) ->
  exists b', write_seq zero s (num_env c) (wlist l) b = (b', true) /\
    forall k, nth_error (ps_master a) k = nth_error (ps_master b) k \/ written c l k ->
      nth_error (ps_master a') k = nth_error (ps_master b') k.
Proof.
  induction l as [|[ci v] l IH]; intros a b a' Ha Hb Hl H.
  - simpl in H. injection H as ->. exists b. split; [reflexivity|]. intros k [E|(x & m & [] & _)]. exact E.
  - cbn [wlist map write_seq fst snd] in H |- *. inversion Hl as [|x l0 (e & Hat & Hs & Hv) Hl']; subst. cbn [fst snd] in *.
    destruct (setitem zero s (num_env c) (pidx ci) v a) as [a1 [r|]] eqn:E1; [|discriminate].
    destruct (write_one s c a a1 ci e v r Ha Hat Hs Hv E1) as (m & M & Hm & HM & Hf & ->).
    destruct (setitem_at zero s c b ci e m v M Hb Hat Hs Hm Hv HM) as [[_ E]|[Hn _]]; [|contradiction]. rewrite E.
    destruct (IH (with_master a (vec_set_list (ps_master a) (dm_nz m) (map (fit zero M (dm_sp m)) (sp_pat (dm_sp m)))))
                 (with_master b (vec_set_list (ps_master b) (dm_nz m) (map (fit zero M (dm_sp m)) (sp_pat (dm_sp m))))) a')
      as (b' & Hb' & Hag); auto using Obj_with_master, vec_set_list_length.
    exists b'. split; [exact Hb'|]. intros k Hk. apply Hag.
    destruct (map_ok s c ci m (ob_wf _ _ _ Ha) (ob_built _ _ _ Ha) Hm) as (_ & [_ Hlen] & Hnd & Hbd & _).
    simpl ps_master. destruct (in_dec Nat.eq_dec k (dm_nz m)) as [Hin|Hin].
    + left. apply In_nth_error in Hin as [i Hi].
      assert (exists x, nth_error (map (fit zero M (dm_sp m)) (sp_pat (dm_sp m))) i = Some x) as [x Hx].
      { apply nth_error_Some_lt_ in Hi. destruct (nth_error (map (fit zero M (dm_sp m)) (sp_pat (dm_sp m))) i) eqn:E'; [eauto|].
        apply nth_error_None in E'. rewrite map_length in E'. unfold sp_nnz in Hlen. lia. }
      rewrite !(vec_set_list_at _ _ _ i k x); auto.
      * now rewrite (ob_len _ _ _ Hb).
      * now rewrite (ob_len _ _ _ Ha).
    + rewrite !vec_set_list_other by exact Hin. destruct Hk as [Hk|(y & m' & [<-|Hy] & Hm' & Hk')].
      * now left.
      * cbn [fst] in Hm'. rewrite Hm in Hm'. injection Hm' as <-. contradiction.
      * right. exists y, m'. auto.
Qed.

(** ** One assignment over all repeat dimensions *)
Lemma write_seq_app s (en : env) l l' : forall st,
  write_seq zero s en (l ++ l') st = match write_seq zero s en l st with (st1, true) => write_seq zero s en l' st1 | x => x end.
Proof.
  induction l as [|[pi [v|]] l IH]; intros st; try reflexivity. simpl.
  destruct (setitem zero s en pi v st) as [st1 [r|x]]; [apply IH|reflexivity].
Qed.

Fixpoint flatW (n : string) (ds : list Z) (idx : list Z) (p : pay) : list (cidx * option pay) :=
  match ds with
  | [] => [(top n idx, Some p)]
  | d :: ds' => flat_map (fun i => match item p i with
                                   | Some q => flatW n ds' (idx ++ [Z.of_nat i]) q
                                   | None => [(top n (idx ++ [Z.of_nat i]), None)]
                                   end) (seq 0 (Z.to_nat d))
  end.
Definition wl (l : list (cidx * option pay)) : list (list pel * option pay) := map (fun x => (pidx (fst x), snd x)) l.

Lemma top_pidx n idx : @pidx T (top n idx) = PStr n :: map (fun i => PInt i) idx.
Proof. unfold top, pidx. simpl. now rewrite map_map. Qed.

Lemma setitem_pending s (en : env) e ds1 d ds2 idx p st : NoDup (map e_name (s_entries s)) -> In e (s_entries s) ->
  e_dims e = ds1 ++ d :: ds2 -> length idx = length ds1 ->
  setitem zero s en (PStr (e_name e) :: map (fun i => PInt i) idx) p st =
  setitem zero s en (PStr (e_name e) :: map (fun i => PInt i) idx ++ [PSlc slice_all]) p st.
Proof.
  intros Hnd He Hd Hl. rewrite <- (app_nil_r (map (fun i => PInt i) idx)) at 1.
  rewrite !(setitem_prefix zero s en e ds1 (d :: ds2)) by assumption. reflexivity.
Qed.

Lemma flat_write s (en : env) e : Wf s -> In e (s_entries s) -> forall ds2 ds1 idx p st st' r,
  e_dims e = ds1 ++ ds2 -> length idx = length ds1 ->
  setitem zero s en (PStr (e_name e) :: map (fun i => PInt i) idx) p st = (st', Ok r) ->
  write_seq zero s en (wl (flatW (e_name e) ds2 idx p)) st = (st', true).
Proof.
  intros Hw He. pose proof (Wf_NoDup _ Hw) as Hnd.
  induction ds2 as [|d ds2 IH]; intros ds1 idx p st st' r Hd Hl H.
  - cbn [flatW wl map write_seq fst snd]. rewrite top_pidx. now rewrite H.
  - rewrite (setitem_pending s en e ds1 d ds2) in H by assumption.
    destruct (Z.ltb_spec d 0) as [Hneg|Hpos].
    { rewrite (setitem_prefix zero s en e ds1 (d :: ds2)) in H by assumption. cbn [travD] in H.
      unfold slice_range, slice_indices in H. simpl in H. destruct (Z.ltb_spec d 0); [|lia]. discriminate. }
    pose proof (list_write zero s en st e ds1 d ds2 idx [] p Hw He Hd Hl Hpos) as HL.
    rewrite H in HL. unfold done in HL. simpl in HL. symmetry in HL.
    clear H. cbn [flatW]. revert st HL. generalize (seq 0 (Z.to_nat d)). intros l.
    induction l as [|i l IHl]; intros st HL; [exact HL|].
    cbn [map write_seq write_at flat_map] in HL |- *. destruct (item p i) as [q|] eqn:Eq; [|discriminate].
    destruct (setitem zero s en _ q st) as [st1 [r1|]] eqn:E1 in HL; [|discriminate].
    unfold wl. rewrite map_app. fold (wl (flatW (e_name e) ds2 (idx ++ [Z.of_nat i]) q)). rewrite write_seq_app.
    rewrite (IH (ds1 ++ [d]) (idx ++ [Z.of_nat i]) q st st1 r1).
    + now apply IHl.
    + rewrite Hd, <- app_assoc. reflexivity.
    + rewrite !app_length. simpl. lia.
    + rewrite map_app. exact E1.
Qed.

Lemma flatW_in n : forall ds idx p jdx q, InDims jdx ds -> nest_item p jdx = Some q -> In (top n (idx ++ jdx), Some q) (flatW n ds idx p).
Proof.
  induction ds as [|d ds IH]; intros idx p jdx q Hj Hq; inversion Hj as [|j d' jdx' ds' Hjd Hj']; subst.
  - simpl in Hq. injection Hq as ->. rewrite app_nil_r. now left.
  - simpl in Hq. destruct (item p (Z.to_nat j)) as [p'|] eqn:Ep; [|discriminate]. cbn [flatW]. apply in_flat_map.
    exists (Z.to_nat j). split; [apply in_seq; lia|]. rewrite Ep.
    replace (idx ++ j :: jdx') with ((idx ++ [Z.of_nat (Z.to_nat j)]) ++ jdx') by (rewrite <- app_assoc; simpl; do 2 f_equal; lia).
    now apply IH.
Qed.

Lemma flatW_inv n : forall ds idx p ci o, In (ci, o) (flatW n ds idx p) -> (exists q, o = Some q) ->
  exists jdx, InDims jdx ds /\ ci = top n (idx ++ jdx) /\ nest_item p jdx = o.
Proof.
  induction ds as [|d ds IH]; intros idx p ci o Hin [q Hq].
  - simpl in Hin. destruct Hin as [[= <- <-]|[]]. exists []. rewrite app_nil_r. repeat split. constructor.
  - cbn [flatW] in Hin. apply in_flat_map in Hin as (i & Hi & Hin). apply in_seq in Hi. destruct (item p i) as [p'|] eqn:Ep.
    + destruct (IH _ _ _ _ Hin) as (jdx & Hj & -> & E); [eauto|]. exists (Z.of_nat i :: jdx). split; [constructor; [lia|exact Hj]|].
      split; [now rewrite <- app_assoc|]. simpl. rewrite Nat2Z.id, Ep. exact E.
    + destruct Hin as [[= <- <-]|[]]. discriminate.
Qed.

Lemma flatW_keys n : forall ds idx p x, In x (flatW n ds idx p) -> exists jdx, fst x = top n (idx ++ jdx).
Proof.
  induction ds as [|d ds IH]; intros idx p x Hin.
  - simpl in Hin. destruct Hin as [<-|[]]. exists []. now rewrite app_nil_r.
  - cbn [flatW] in Hin. apply in_flat_map in Hin as (i & Hi & Hin). destruct (item p i).
    + destruct (IH _ _ _ Hin) as [jdx ->]. exists (Z.of_nat i :: jdx). now rewrite <- app_assoc.
    + destruct Hin as [<-|[]]. exists [Z.of_nat i]. reflexivity.
Qed.

Lemma FOP_app {A} (R : A -> A -> Prop) l l' : ForallOrdPairs R l -> ForallOrdPairs R l' ->
  (forall x y, In x l -> In y l' -> R x y) -> ForallOrdPairs R (l ++ l').
Proof.
  induction 1 as [|a l Ha Hl IH]; intros H' Hx; [exact H'|]. simpl. constructor.
  - apply Forall_app. split; [exact Ha|]. apply Forall_forall. intros y Hy. apply Hx; [now left|exact Hy].
  - apply IH; auto. intros x y Hxl Hy. apply Hx; [now right|exact Hy].
Qed.
Lemma FOP_flat_map {A B} (R : B -> B -> Prop) (f : A -> list B) l : NoDup l ->
  (forall a, In a l -> ForallOrdPairs R (f a)) ->
  (forall a b x y, In a l -> In b l -> a <> b -> In x (f a) -> In y (f b) -> R x y) -> ForallOrdPairs R (flat_map f l).
Proof.
  induction 1 as [|a l Ha Hl IH]; intros H1 H2; [constructor|]. simpl. apply FOP_app.
  - apply H1. now left.
  - apply IH; [intros b Hb; apply H1; now right|]. intros b b' x y Hb Hb'. apply H2; now right.
  - intros x y Hx Hy. apply in_flat_map in Hy as (b & Hb & Hy). apply (H2 a b); auto; [now left|now right|congruence].
Qed.

Lemma top_apart n n' idx idx' r r' : n <> n' -> apart (top n (idx ++ r)) (top n' (idx' ++ r')).
Proof. intros Hn x y E. unfold top in E. simpl in E. injection E as E _. contradiction. Qed.
Lemma top_apart_idx n idx (i j : Z) r r' : i <> j -> apart (top n ((idx ++ [i]) ++ r)) (top n ((idx ++ [j]) ++ r')).
Proof.
  intros Hn x y E. unfold top in E. simpl in E. injection E as E. rewrite !map_app, <- !app_assoc in E. apply app_inv_head in E.
  simpl in E. injection E as E _. contradiction.
Qed.

Lemma flatW_apart n : forall ds idx p, ForallOrdPairs (fun x y => apart (fst x) (fst y)) (flatW n ds idx p).
Proof.
  induction ds as [|d ds IH]; intros idx p; [repeat constructor|]. cbn [flatW]. apply FOP_flat_map.
  - apply seq_NoDup.
  - intros i _. destruct (item p i); [apply IH|repeat constructor].
  - intros i j x y _ _ Hij Hx Hy.
    assert (G : forall i x, In x (match item p i with Some q => flatW n ds (idx ++ [Z.of_nat i]) q | None => [(top n (idx ++ [Z.of_nat i]), None)] end) ->
        exists r, fst x = top n ((idx ++ [Z.of_nat i]) ++ r)).
    { intros i0 x0 H0. destruct (item p i0); [now apply flatW_keys in H0|]. destruct H0 as [<-|[]]. exists []. now rewrite app_nil_r. }
    destruct (G _ _ Hx) as [r ->]. destruct (G _ _ Hy) as [r' ->]. apply top_apart_idx. lia.
Qed.

(** ** Assignments to all entries by name *)
Definition names_seq (s : structure) (kv : list (string * pay)) : list (cidx * option pay) :=
  flat_map (fun x => match dict_get (fst x) (s_dict s) with Some e => flatW (fst x) (e_dims e) [] (snd x) | None => [] end) kv.

Lemma all_some (l : list (cidx * option pay)) s (en : env) : forall st st', write_seq zero s en (wl l) st = (st', true) ->
  exists l', l = map (fun x => (fst x, Some (snd x))) l'.
Proof.
  induction l as [|[ci [v|]] l IH]; intros st st' H; [now exists []| |discriminate]. cbn [wl map write_seq fst snd] in H.
  destruct (setitem zero s en (pidx ci) v st) as [st1 [r|]]; [|discriminate]. destruct (IH _ _ H) as [l' ->]. exists ((ci, v) :: l'). reflexivity.
Qed.

Lemma so_sets_seq s c (en : env) : cs_struct c = s -> Wf s -> forall kv st o,
  (forall x, In x kv -> exists e, In e (s_entries s) /\ e_name e = fst x) ->
  so_sets zero (SObj c en st) (map (fun x => ([PStr (fst x)], snd x)) kv) = Ok o ->
  so_c o = c /\ so_env o = en /\ write_seq zero s en (wl (names_seq s kv)) st = (so_st o, true).
Proof.
  intros Hcs Hw. induction kv as [|[n p] kv IH]; intros st o Hkv H.
  - simpl in H. injection H as <-. auto.
  - cbn [map so_sets fst snd] in H. unfold so_set in H. cbn [so_c so_env so_st] in H. rewrite Hcs in H.
    destruct (setitem zero s en [PStr n] p st) as [st1 [r|]] eqn:E1; [|discriminate].
    destruct (IH st1 o (fun x h => Hkv x (or_intror h)) H) as (H1 & H2 & H3). repeat split; auto.
    destruct (Hkv (n, p) (or_introl eq_refl)) as (e & He & En). cbn [fst] in En. subst n.
    unfold names_seq. cbn [flat_map fst snd]. rewrite (s_dict_get s e (Wf_NoDup _ Hw) He).
    unfold wl. rewrite map_app, write_seq_app. fold (wl (flatW (e_name e) (e_dims e) [] p)).
    rewrite (flat_write s en e Hw He (e_dims e) [] [] p st st1 r); auto.
Qed.

Lemma nest_item_ok : forall idx (p q : pay), PayOk p -> nest_item p idx = Some q -> pay_ok q /\ PayOk q.
Proof.
  induction idx as [|i idx IH]; intros p q Hp H; simpl in H.
  - injection H as <-. split; [|exact Hp]. destruct p; exact Hp || exact I.
  - destruct (item p (Z.to_nat i)) as [p'|] eqn:E; [|discriminate]. apply (IH p'); auto.
    destruct p; simpl in E; try (injection E as <-; exact Hp).
    clear -Hp E. simpl in Hp. revert E Hp. generalize (Z.to_nat i). induction l as [|x l IH]; intros [|k] E Hp; try discriminate.
    + simpl in E. injection E as <-. apply Hp.
    + simpl in E. apply (IH k E). apply Hp.
Qed.

Lemma idx_sp s c n idx e m : Wf s -> casadi_structure s = Ok c -> In e (s_entries s) -> e_name e = n -> InDims idx (e_dims e) ->
  cmap_get (top n idx) (cs_map c) = Some m -> IdxSp e (dm_sp m).
Proof.
  intros Hw Hc He <- Hi Hm. unfold IdxSp, top in *. destruct (e_struct e) as [s'|] eqn:Es.
  - pose proof (Block_here s e idx s' He Es Hi) as Hb. destruct (casadi_structure_ok s' (Block_Wf _ _ _ Hw Hb)) as (c' & Hc' & Hs' & Hsz & _).
    exists (cs_size c'). split; [exists c'; auto|].
    assert (Hne : leaves s' <> []).
    { destruct (map_keys s c _ m Hw Hc Hm) as [(e1 & Hl)|(s1 & Hb1 & Hn1)].
      - exfalso. destruct (Block_At _ _ _ Hb) as (e2 & Ha2 & Es2). destruct (Leaf_At _ _ _ Hl) as [Ha1 Es1].
        rewrite (At_fun s _ _ _ Hw Ha1 Ha2) in Es1. congruence.
      - destruct (Block_At _ _ _ Hb) as (e2 & Ha2 & Es2). destruct (Block_At _ _ _ Hb1) as (e3 & Ha3 & Es3).
        rewrite (At_fun s _ _ _ Hw Ha3 Ha2) in Es3. congruence. }
    destruct (Block_segment s _ s' Hw Hb) as (l1 & l2 & Hseg).
    rewrite (map_block s c _ s' l1 l2 Hw Hc Hb Hne Hseg) in Hm. injection Hm as <-. simpl. rewrite seq_length. f_equal. congruence.
  - destruct (map_get_leaf s c _ e Hw Hc (Leaf_prim s e idx He Es Hi)) as (m' & Hm' & Hsp). congruence.
Qed.

Lemma names_in s kv (l' : list (cidx * pay)) : names_seq s kv = map (fun x => (fst x, Some (snd x))) l' ->
  forall ci q, In (ci, q) l' <-> In (ci, Some q) (names_seq s kv).
Proof.
  intros El ci q. rewrite El. split; [intros Hi; apply in_map_iff; exists (ci, q); auto|].
  intros Hi. apply in_map_iff in Hi as ([ci' q'] & [= <- <-] & Hi). exact Hi.
Qed.
Lemma names_writable s kv (l' : list (cidx * pay)) : Wf s ->
  (forall x, In x kv -> PayOk (snd x) /\ exists e, In e (s_entries s) /\ e_name e = fst x /\ e_symm e = false) ->
  names_seq s kv = map (fun x => (fst x, Some (snd x))) l' -> Forall (writable s) l'.
Proof.
  intros Hw Hkv El. apply Forall_forall. intros [ci q] Hi. apply (names_in s kv l' El) in Hi.
  unfold names_seq in Hi. apply in_flat_map in Hi as ([n p] & Hx & Hi). cbn [fst snd] in Hi.
  destruct (Hkv _ Hx) as (Hp & e & He & En & Hs). cbn [fst snd] in *. subst n. rewrite (s_dict_get s e (Wf_NoDup _ Hw) He) in Hi.
  destruct (flatW_inv _ _ _ _ _ _ Hi) as (jdx & Hj & -> & Hn); [eauto|]. exists e. split; [now apply At_here|]. split; [exact Hs|].
  eapply nest_item_ok; eauto.
Qed.

Theorem names_reads s c (st : pstate) kv (o : sobj T) : Obj s c st -> cs_struct c = s ->
  NoDup (map fst kv) -> (forall x, In x kv -> PayOk (snd x) /\ exists e, In e (s_entries s) /\ e_name e = fst x /\ e_symm e = false) ->
  so_sets zero (SObj c (num_env c) st) (map (fun x => ([PStr (fst x)], snd x)) kv) = Ok o ->
  Obj s c (so_st o) /\ so_c o = c /\ so_env o = num_env c /\
  forall n p e idx, In (n, p) kv -> In e (s_entries s) -> e_name e = n -> InDims idx (e_dims e) ->
    exists q sp R, nest_item p idx = Some q /\ IdxSp e sp /\ so_get zero o (pidx (top n idx)) = Ok (RMat R) /\ Holds q sp R.
Proof.
  intros Ho Hcs Hnd Hkv H. pose proof (ob_wf _ _ _ Ho) as Hw. pose proof (ob_built _ _ _ Ho) as Hc.
  destruct (so_sets_seq s c (num_env c) Hcs Hw kv st o) as (E1 & E2 & Hseq).
  { intros x Hx. destruct (Hkv x Hx) as (_ & e & H1 & H2 & _). eauto. }
  { exact H. }
  destruct (all_some _ _ _ _ _ Hseq) as [l' El].
  pose proof (names_in s kv l' El) as Hin.
  assert (Hseq' : write_seq zero s (num_env c) (wlist l') st = (so_st o, true)).
  { rewrite <- Hseq, El. unfold wl, wlist. rewrite map_map. reflexivity. }
  pose proof (names_writable s kv l' Hw Hkv El) as Hwr.
  assert (Hap : ForallOrdPairs (fun x y => apart (fst x) (fst y)) l').
  { assert (G : ForallOrdPairs (fun x y : cidx * option pay => apart (fst x) (fst y)) (names_seq s kv)).
    { unfold names_seq. clear -Hnd. induction kv as [|[n p] kv IH]; [constructor|]. inversion Hnd as [|x l Hx Hl]; subst. cbn [flat_map].
      apply FOP_app; [|auto|].
      - cbn [fst snd]. destruct (dict_get n (s_dict s)); [apply flatW_apart|constructor].
      - intros x y Hi Hj. cbn [fst snd] in Hi. destruct (dict_get n (s_dict s)) as [e|]; [|destruct Hi].
        apply in_flat_map in Hj as ([n' p'] & Hy & Hj). cbn [fst snd] in Hj. destruct (dict_get n' (s_dict s)) as [e'|]; [|destruct Hj].
        destruct (flatW_keys _ _ _ _ _ Hi) as [r ->]. destruct (flatW_keys _ _ _ _ _ Hj) as [r' ->]. apply top_apart.
        intros ->. apply Hx. change n' with (fst (n', p')). now apply in_map. }
    rewrite El in G. clear -G. induction l' as [|x l' IH]; [constructor|]. inversion G as [|y l0 H1 H2]; subst. constructor; [|auto].
    rewrite Forall_map in H1. exact H1. }
  destruct (seq_frame s c l' st (so_st o) Ho Hwr Hseq') as [Ho' _].
  split; [exact Ho'|]. split; [exact E1|]. split; [exact E2|].
  intros n p e idx Hn He En Hidx.
  assert (Hq : exists q, nest_item p idx = Some q).
  { destruct (nest_item p idx) as [q|] eqn:Eq; [eauto|]. exfalso.
    assert (Hnone : exists ci, In (ci, None) (names_seq s kv)).
    { subst n. assert (G : forall ds idx0 p jdx, InDims jdx ds -> nest_item p jdx = None -> exists ci, In (ci, None) (flatW (e_name e) ds idx0 p)).
      { clear. induction ds as [|d ds IH]; intros idx0 p jdx Hj Hn; inversion Hj as [|j d' jdx' ds' Hjd Hj']; subst; [discriminate|].
        simpl in Hn. cbn [flatW]. destruct (item p (Z.to_nat j)) as [q|] eqn:Ep.
        - destruct (IH (idx0 ++ [Z.of_nat (Z.to_nat j)]) q jdx' Hj' Hn) as [ci Hci]. exists ci. apply in_flat_map. exists (Z.to_nat j).
          split; [apply in_seq; lia|]. now rewrite Ep.
        - eexists. apply in_flat_map. exists (Z.to_nat j). split; [apply in_seq; lia|]. rewrite Ep. now left. }
      destruct (G (e_dims e) [] p idx Hidx Eq) as [ci Hci]. exists ci. unfold names_seq. apply in_flat_map. exists (e_name e, p). split; [exact Hn|].
      cbn [fst snd]. rewrite (s_dict_get s e (Wf_NoDup _ Hw) He). exact Hci. }
    destruct Hnone as [ci Hci]. rewrite El in Hci. apply in_map_iff in Hci as (? & ? & _). discriminate. }
  destruct Hq as [q Hq]. exists q.
  assert (Hmem : In (top n idx, q) l').
  { apply Hin. unfold names_seq. apply in_flat_map. exists (n, p). split; [exact Hn|]. cbn [fst snd]. subst n.
    rewrite (s_dict_get s e (Wf_NoDup _ Hw) He). apply (flatW_in (e_name e) (e_dims e) [] p idx q); auto. }
  destruct (seq_reads s c l' st (so_st o) Ho Hwr Hap Hseq' (top n idx) q Hmem) as (m & R & Hm & HR & HH).
  exists (dm_sp m), R. split; [exact Hq|]. split; [eapply idx_sp; eauto|]. split; [|exact HH].
  unfold so_get. rewrite E1, E2, Hcs. exact HR.
Qed.

End P.
