(** The exceptions of [entry(...)] (C116). *)
From Verif Require Import PyBase IndexModel DMModel StructModel StructSpec LayoutProofs PowerModel EntryModel EntrySpec EntryProofs ErrClassSpec.
Open Scope nat_scope.

Section ErrClass.
Context {T : Type}.
Notation kval := (kval T).
Notation kwargs := (kwargs T).

Lemma un_get (kw : kwargs) k : k <> "type"%string -> dict_get k (untyped kw) = dict_get k kw.
Proof.
  intros Hk. induction kw as [|[k' v] kw IH]; [reflexivity|]. unfold untyped in *. cbn [filter fst]. destruct (String.eqb_spec k' "type") as [->|Hn]; cbn [negb dict_get].
  - destruct (String.eqb_spec "type" k); [congruence|]. destruct (String.eqb_spec k "type"); [congruence|]. exact IH.
  - rewrite IH. reflexivity.
Qed.
Lemma un_given (kw : kwargs) k v : given (untyped kw) k v <-> given kw k v /\ k <> "type"%string.
Proof. unfold given, untyped. rewrite filter_In. cbn [fst]. destruct (String.eqb_spec k "type"); cbn; intuition congruence. Qed.
Lemma un_absent (kw : kwargs) k : k <> "type"%string -> (absent (untyped kw) k <-> absent kw k).
Proof. intros Hk. split; intros H v Hv; apply (H v); [apply un_given; split; assumption|now apply un_given in Hv]. Qed.
Lemma un_nodup (kw : kwargs) : NoDup (map fst kw) -> NoDup (map fst (untyped kw)).
Proof.
  induction kw as [|[k v] kw IH]; intros H; [exact H|]. inversion H as [|? ? H1 H2]; subst. unfold untyped in *. cbn [filter fst]. destruct (negb _); [|now apply IH]. cbn [map fst]. constructor; [|now apply IH]. intros Hi. apply H1. apply in_map_iff in Hi as ([k' v'] & <- & Hi). apply filter_In in Hi as [Hi _]. apply in_map_iff. now exists (k', v').
Qed.
Lemma un_has (kw : kwargs) k : k <> "type"%string -> has k (untyped kw) = has k kw.
Proof.
  intros Hk. destruct (has k kw) eqn:E; [apply has_given in E as (v & Hv); apply has_given; exists v; apply un_given; now split|]. apply has_absent in E. apply has_absent. now apply un_absent.
Qed.
Lemma un_keys (kw : kwargs) : forallb (fun k => str_mem (fst k) kws) (untyped kw) = forallb (fun k => str_mem (fst k) kws) kw.
Proof. induction kw as [|[k v] kw IH]; [reflexivity|]. unfold untyped in *. cbn [filter fst forallb]. destruct (String.eqb_spec k "type") as [->|]; cbn [negb forallb fst]; rewrite IH; reflexivity. Qed.
Lemma un_forbidden (kw : kwargs) : existsb (fun c => has (fst c) (untyped kw) && existsb (fun f => has f (untyped kw)) (snd c)) forbidden = existsb (fun c => has (fst c) kw && existsb (fun f => has f kw) (snd c)) forbidden.
Proof. unfold forbidden. cbn [existsb fst snd]. rewrite !un_has by discriminate. reflexivity. Qed.
Lemma un_type (kw : kwargs) sp : kw_type (untyped kw) sp = Ok (false, None, sp).
Proof.
  unfold kw_type. replace (dict_get "type"%string (untyped kw)) with (@None kval); [reflexivity|]. symmetry. induction kw as [|[k v] kw IH]; [reflexivity|]. unfold untyped in *. cbn [filter fst]. destruct (String.eqb_spec k "type") as [->|Hn]; cbn [negb]; [exact IH|]. cbn [dict_get]. destruct (String.eqb_spec "type" k); [congruence|]. destruct (String.eqb_spec k "type"); [congruence|]. exact IH.
Qed.
(** 'type' is looked at last. *)
Lemma type_last name (kw : kwargs) : entry_init name kw =
  (let* ce := entry_init name (untyped kw) in let* (symm, orig, sp) := kw_type kw (e_sp (ce_entry ce)) in
   Ok (CEntry (mkEntry name (e_dims (ce_entry ce)) (e_struct (ce_entry ce)) sp symm orig (e_shape (ce_entry ce))) (ce_sym ce) (ce_expr ce))).
Proof.
  unfold entry_init. rewrite un_keys, un_forbidden. destruct (negb _); [reflexivity|]. destruct (existsb _ forbidden); [reflexivity|].
  unfold kw_repeat, kw_struct, kw_shape, kw_shapestruct, kw_sym, kw_expr. rewrite !un_get, un_has by discriminate.
  destruct (ints _); [|reflexivity]. cbn [rbind]. set (S1 := match dict_get "shape" kw with Some _ => _ | None => _ end). destruct S1 as [sp|]; [|reflexivity]. cbn [rbind].
  set (S2 := match dict_get "shapestruct" kw with Some _ => _ | None => _ end). destruct S2 as [[shs sp2]|]; [|reflexivity]. cbn [rbind].
  set (S3 := match dict_get "sym" kw with Some _ => _ | None => _ end). destruct S3 as [[[sy st] sp3]|]; [|reflexivity]. cbn [rbind].
  set (S4 := match dict_get "expr" kw with Some _ => _ | None => _ end). destruct S4 as [[[ex rep] sp4]|]; [|reflexivity]. cbn [rbind]. rewrite un_type. reflexivity.
Qed.

(** ** The classes of the single checks *)
Lemma dense_class l x : length l = 1 \/ length l = 2 -> sparsity_dense l = Err x -> x = EException.
Proof. intros Hl. destruct l as [|a [|b [|c l]]]; simpl in Hl; try lia; cbn; destruct (_ || _); congruence. Qed.
Lemma ints_len (l : list kval) zs : ints l = Some zs -> length zs = length l.
Proof. intros H. apply ints_map in H. subst. now rewrite map_length. Qed.
Lemma ints_none (l : list kval) : ints l = None <-> forall zs, l <> map VInt zs.
Proof. split; [intros H zs ->; assert (ints (map (@VInt T) zs) = Some zs) by (now apply ints_map); congruence|]. intros H. destruct (ints l) as [zs|] eqn:E; [|reflexivity]. apply ints_map in E. now apply H in E. Qed.
Lemma repeat_class (kw : kwargs) x : kw_repeat kw = Err x -> x = EException.
Proof. unfold kw_repeat. destruct (ints _); congruence. Qed.
Lemma shape_class (kw : kwargs) x : NoDup (map fst kw) -> kw_shape kw = Err x -> x = EException \/ x = ENotImpl /\ exists v, given kw "shape" v /\ OddShape v.
Proof.
  intros Hn. unfold kw_shape. destruct (dict_get "shape" kw) as [v|] eqn:E; [apply (get_given _ _ _ Hn) in E|intros H; left; revert H; apply dense_class; simpl; lia].
  assert (HL : forall l, (v = VList l \/ v = VTuple l) -> (if (length l =? 0) || (2 <? length l) then Err EException else match ints l with Some zs => sparsity_dense zs | None => Err ENotImpl end) = Err x -> x = EException \/ x = ENotImpl /\ exists v, given kw "shape" v /\ OddShape v).
  { intros l Hv. destruct (Nat.eqb_spec (length l) 0), (Nat.ltb_spec 2 (length l)); cbn [orb]; try (intros [= <-]; now left). destruct (ints l) as [zs|] eqn:Ei; [intros Hd; left; revert Hd; apply dense_class; rewrite (ints_len l zs Ei); lia|]. intros [= <-]. right. split; [reflexivity|]. exists v. split; [exact E|]. exists l. split; [exact Hv|]. split; [lia|now apply ints_none]. }
  destruct v; try (intros [= <-]; now left); try discriminate; try (apply HL; auto; fail). intros H. left. revert H. apply dense_class. simpl. lia.
Qed.
Lemma wf_size d x : (forall s, d = SDS s -> Wf s) -> sdim_size d = Err x -> False.
Proof. intros H. destruct d as [s|n]; cbn; [|congruence]. destruct (casadi_structure_ok s (H s eq_refl)) as (c & -> & _). cbn. congruence. Qed.
Lemma sizes_class l x : (forall s, In (SDS s) l -> Wf s) -> length l = 1 \/ length l = 2 -> (let* zs := rmapM sdim_size l in sparsity_dense zs) = Err x -> x = EException.
Proof.
  intros Hw Hl. assert (exists zs, rmapM sdim_size l = Ok zs /\ length zs = length l) as (zs & -> & Hz).
  { clear Hl. induction l as [|d l IH]; [exists []; split; reflexivity|]. destruct IH as (zs & E & L); [intros s Hs; apply Hw; now right|]. cbn [rmapM]. destruct (sdim_size d) as [z|y] eqn:Ed; [|exfalso; apply (wf_size d y); [intros s ->; apply Hw; now left|exact Ed]]. exists (z :: zs). rewrite E. cbn. split; [reflexivity|now rewrite L]. }
  cbn [rbind]. apply dense_class. lia.
Qed.
Lemma val_list_ok (l : list kval) v : (fix go (l : list kval) : Prop := match l with [] => True | x :: l' => ValOk x /\ go l' end) l -> In v l -> ValOk v.
Proof. induction l as [|w l IH]; intros H Hi; [destruct Hi|]. destruct H as [H1 H2]. destruct Hi as [<-|Hi]; [exact H1|now apply IH]. Qed.
Lemma shapestruct_class (kw : kwargs) sp x : NoDup (map fst kw) -> (forall k v, given kw k v -> ValOk v) -> kw_shapestruct kw sp = Err x -> x = EException.
Proof.
  intros Hn Hok. unfold kw_shapestruct. destruct (dict_get "shapestruct" kw) as [v|] eqn:E; [|discriminate]. apply (get_given _ _ _ Hn) in E. apply Hok in E.
  assert (HL : forall l, (forall s, In (SDS s) l -> Wf s) -> length l = 1 \/ length l = 2 -> (if has "shape" kw then Ok (Some l, sp) else let* zs := rmapM sdim_size l in let* sp' := sparsity_dense zs in Ok (Some l, sp')) = Err x -> x = EException).
  { intros l Hw Hl. destruct (has "shape" kw); [discriminate|]. intros H. apply (sizes_class l x Hw Hl). destruct (rmapM sdim_size l) as [zs|]; cbn [rbind] in *; [|now injection H as ->]. destruct (sparsity_dense zs); [discriminate|now injection H as ->]. }
  destruct v; cbn [rbind]; try (intros [= <-]; reflexivity).
  - destruct (shape_comps l) as [ds|] eqn:Ec; [|intros [= <-]; reflexivity]. destruct (Nat.eqb_spec (length ds) 0), (Nat.ltb_spec 2 (length ds)); cbn [orb rbind]; try (intros [= <-]; reflexivity). apply HL; [|lia]. intros s Hs. apply shape_comps_spec in Ec. cbn in E.
    clear -Ec Hs E. induction Ec as [|v d l ds Hc Ec IH]; [destruct Hs|]. destruct E as [E1 E2]. destruct Hs as [->|Hs]; [|now apply IH]. inversion Hc as [|? ? [->|(m & ->)]]; subst; [exact E1|apply E1].
  - apply HL; [|simpl; lia]. intros s' [[= <-]|[[=]|[]]]. exact E.
  - apply HL; [|simpl; lia]. intros s' [[= <-]|[[=]|[]]]. apply E.
Qed.
Lemma sym_class (kw : kwargs) st sp x : kw_sym kw st sp = Err x -> x = EException.
Proof. unfold kw_sym. destruct (dict_get "sym" kw) as [[| | | | | | | |[] | |]|]; congruence. Qed.
Lemma expr_class (kw : kwargs) rep sp x : kw_expr kw rep sp = Err x -> x = EException.
Proof. unfold kw_expr. destruct (dict_get "expr" kw) as [e|]; [|discriminate]. destruct (getPrimitive e []) as [[p|] r]; [destruct (val_sparsity p); congruence|discriminate]. Qed.
Lemma type_class (kw : kwargs) sp x : kw_type kw sp = Err x -> x = EType.
Proof.
  unfold kw_type. destruct (dict_get "type" kw) as [[| |t| | | | | | | |]|]; try congruence. destruct (String.eqb t "symm"); [|congruence]. destruct (Nat.eqb_spec (sp_nr sp) (sp_nc sp)) as [En|]; [|cbn [negb]; congruence]. cbn [negb]. unfold sp_inter. unfold sp_upper at 1 2. cbn [sp_nr sp_nc]. rewrite Nat.eqb_refl, En, Nat.eqb_refl. discriminate.
Qed.

(** ** The exceptions of [entry] *)
Theorem entry_class name (kw : kwargs) x : NoDup (map fst kw) -> (forall k v, given kw k v -> ValOk v) -> Plain kw -> entry_init name kw = Err x ->
  x = EException \/ (x = EType /\ exists v, given kw "type" v) \/ (x = ENotImpl /\ exists v, given kw "shape" v /\ OddShape v).
Proof.
  intros Hn Hok _. unfold entry_init. destruct (negb _); [intros [= <-]; now left|]. destruct (existsb _ forbidden); [intros [= <-]; now left|].
  destruct (kw_repeat kw) as [rep|y] eqn:E1; cbn [rbind]; [|intros [= <-]; left; exact (repeat_class kw y E1)].
  destruct (kw_shape kw) as [sp|y] eqn:E2; cbn [rbind]; [|intros [= <-]; destruct (shape_class kw y Hn E2); auto].
  destruct (kw_shapestruct kw sp) as [[shs sp2]|y] eqn:E3; cbn [rbind]; [|intros [= <-]; left; exact (shapestruct_class kw sp y Hn Hok E3)].
  destruct (kw_sym kw (kw_struct kw) sp2) as [[[sy st] sp3]|y] eqn:E4; cbn [rbind]; [|intros [= <-]; left; exact (sym_class kw _ sp2 y E4)].
  destruct (kw_expr kw rep sp3) as [[[ex rep2] sp4]|y] eqn:E5; cbn [rbind]; [|intros [= <-]; left; exact (expr_class kw rep sp3 y E5)].
  destruct (kw_type kw sp4) as [[[b o] sp5]|y] eqn:E6; cbn [rbind]; [discriminate|]. intros [= <-]. right. left. split; [exact (type_class kw sp4 y E6)|]. unfold kw_type in E6. destruct (dict_get "type" kw) as [v|] eqn:Ev; [|discriminate]. exists v. now apply (get_given _ _ _ Hn).
Qed.
Lemma un_sparsity (kw : kwargs) sp : DocSparsity (untyped kw) sp <-> DocSparsity kw sp.
Proof.
  assert (G : forall k v, k <> "type"%string -> (given (untyped kw) k v <-> given kw k v)) by (intros k v Hk; rewrite un_given; tauto).
  split; intros H; destruct H as [e dims p sp H1 H2 H3|e H1 H2|v m H1 H2|v sp H1 H2|v l sp A1 A2 A3 H1 H2 H3|A1 A2 A3 A4].
  - apply G in H1; [|discriminate]. eapply DP_expr; eassumption.
  - apply G in H1; [|discriminate]. eapply DP_empty; eassumption.
  - apply G in H1; [|discriminate]. eapply DP_sym; eassumption.
  - apply G in H1; [|discriminate]. eapply DP_shape; eassumption.
  - apply G in H1; [|discriminate]. apply (un_absent kw) in A1, A2, A3; try discriminate. eapply DP_shapestruct; eassumption.
  - apply (un_absent kw) in A1, A2, A3, A4; try discriminate. now apply DP_default.
  - apply <- G in H1; [|discriminate]. eapply DP_expr; eassumption.
  - apply <- G in H1; [|discriminate]. eapply DP_empty; eassumption.
  - apply <- G in H1; [|discriminate]. eapply DP_sym; eassumption.
  - apply <- G in H1; [|discriminate]. eapply DP_shape; eassumption.
  - apply <- G in H1; [|discriminate]. eapply DP_shapestruct; try eassumption; apply un_absent; try discriminate; assumption.
  - apply DP_default; apply un_absent; try discriminate; assumption.
Qed.
Lemma un_result name (kw : kwargs) ce : NoDup (map fst kw) -> entry_init name (untyped kw) = Ok ce -> Valid (untyped kw) /\ forall sp, DocSparsity kw sp <-> sp = e_sp (ce_entry ce).
Proof.
  intros Hn E. pose proof (un_nodup kw Hn) as Hn'. assert (HV : Valid (untyped kw)) by (apply (entry_accepts_iff name _ Hn'); now exists ce). split; [exact HV|]. destruct (entry_result name _ ce Hn' E) as (_ & _ & (sp0 & Hs & Hst) & _).
  assert (sp0 = e_sp (ce_entry ce)) as <-. { inversion Hst as [? Ha|? n Ht Hr Hc]; subst; [reflexivity|]. apply (un_given kw) in Ht as [_ Ht]; congruence. }
  intros sp. rewrite <- un_sparsity. split; [intros H|intros ->; exact Hs]. destruct (doc_unique _ Hn' HV) as (_ & U & _). exact (U sp sp0 H Hs).
Qed.
Theorem entry_type_error name (kw : kwargs) : NoDup (map fst kw) -> (forall k v, given kw k v -> ValOk v) -> Plain kw -> (entry_init name kw = Err EType <-> Valid (untyped kw) /\ exists v, given kw "type" v /\ ~ GoodType kw v).
Proof.
  intros Hn Hok HP. rewrite type_last. pose proof (un_nodup kw Hn) as Hn'. split.
  - destruct (entry_init name (untyped kw)) as [ce|x] eqn:E; cbn [rbind].
    + destruct (un_result name kw ce Hn E) as [HV HS]. split; [exact HV|]. revert H. unfold kw_type. destruct (dict_get "type" kw) as [v|] eqn:Ev; [|discriminate]. apply (get_given _ _ _ Hn) in Ev. intros H. exists v. split; [exact Ev|]. intros (-> & sp & Hsp & Hq). apply HS in Hsp. subst sp. rewrite String.eqb_refl, Hq, Nat.eqb_refl in H. cbn [negb] in H.
      unfold sp_inter in H. unfold sp_upper at 1 2 in H. cbn [sp_nr sp_nc] in H. rewrite Hq, Nat.eqb_refl in H. discriminate.
    + intros [= ->]. destruct (entry_class name (untyped kw) EType Hn' ltac:(intros k v Hv; apply (un_given kw) in Hv as [Hv _]; exact (Hok k v Hv)) ltac:(destruct HP as [P1 P2]; split; intros v Hv; apply (un_given kw) in Hv as [Hv _]; [exact (P1 v Hv)|exact (P2 v Hv)]) E) as [H|[[_ (v & Hv)]|[H _]]]; try discriminate. apply un_given in Hv as [_ Hv]; congruence.
  - intros (HV & v & Hv & Hg). destruct (proj2 (entry_accepts_iff name _ Hn') HV) as (ce & E). rewrite E. cbn [rbind]. destruct (un_result name kw ce Hn E) as [_ HS]. unfold kw_type. apply (get_given _ _ _ Hn) in Hv. rewrite Hv. destruct v as [| |t| | | | | | | |]; try reflexivity. destruct (String.eqb_spec t "symm") as [->|]; [|reflexivity].
    destruct (Nat.eqb_spec (sp_nr (e_sp (ce_entry ce))) (sp_nc (e_sp (ce_entry ce)))) as [Eq|]; [|reflexivity]. exfalso. apply Hg. split; [reflexivity|]. exists (e_sp (ce_entry ce)). split; [now apply HS|exact Eq].
Qed.
Theorem entry_not_impl name (kw : kwargs) : NoDup (map fst kw) -> (forall k v, given kw k v -> ValOk v) -> Plain kw ->
  (entry_init name kw = Err ENotImpl <-> (forall k v, given kw k v -> In k doc_keywords) /\ (forall k k' v v', In (k, k') doc_conflicts -> given kw k v -> given kw k' v' -> False) /\ (exists r, DocRepeat kw r) /\ exists v, given kw "shape" v /\ OddShape v).
Proof.
  intros Hn Hok HP. split.
  - intros H. destruct (entry_class name kw ENotImpl Hn Hok HP H) as [?|[[? _]|[_ HS]]]; try discriminate. revert H. unfold entry_init. destruct (forallb _ kw) eqn:K; [|discriminate]. cbn [negb]. destruct (existsb _ forbidden) eqn:F; [discriminate|]. intros H.
    assert (HC : forall k k' v v', In (k, k') doc_conflicts -> given kw k v -> given kw k' v' -> False). { intros k k' v v' Hk Hv Hv'. assert (existsb (fun c => has (fst c) kw && existsb (fun f => has f kw) (snd c)) forbidden = true) by (apply conflict_check; eauto 8). congruence. }
    split; [now apply keys_check|]. split; [exact HC|]. split; [|exact HS]. destruct (kw_repeat kw) as [rep|y] eqn:E1; [|apply repeat_class in E1; subst; discriminate]. apply (kw_repeat_spec _ _ Hn) in E1 as [[Ha ->]|(v & Hv & Hr)]; [|eexists; eapply DR_given; eassumption].
    exists []. apply DR_none; [exact Ha|]. intros e He. destruct HS as (v & Hv & _). apply (HC "expr"%string "shape"%string e v); [cbn; tauto|exact He|exact Hv].
  - intros (K & C & (r & Hr) & v & Hv & l & Hl & Hlen & Hi). unfold entry_init. rewrite (proj2 (keys_check kw) K). cbn [negb].
    destruct (existsb (fun c => has (fst c) kw && existsb (fun f => has f kw) (snd c)) forbidden) eqn:F; [exfalso; apply conflict_check in F as (k & k' & w & w' & H1 & H2 & H3); exact (C k k' w w' H1 H2 H3)|].
    destruct (kw_repeat kw) as [rep|y] eqn:E1; cbn [rbind].
    + unfold kw_shape. pose proof (proj2 (get_given _ _ _ Hn) Hv) as Hg. rewrite Hg. assert (Hl0 : (length l =? 0) || (2 <? length l) = false) by (destruct (Nat.eqb_spec (length l) 0), (Nat.ltb_spec 2 (length l)); try reflexivity; lia). apply ints_none in Hi. destruct Hl as [-> | ->]; rewrite Hl0, Hi; reflexivity.
    + exfalso. assert (exists r', kw_repeat kw = Ok r') as (r' & Er); [|congruence]. destruct Hr as [A1 A2|w zs Hw Hz|e dims p He _|e He _].
      * exists []. apply (kw_repeat_spec _ _ Hn). left. now split.
      * exists zs. apply (kw_repeat_spec _ _ Hn). right. now exists w.
      * exfalso. apply (C "expr"%string "shape"%string e v); [cbn; tauto|exact He|exact Hv].
      * exfalso. apply (C "expr"%string "shape"%string e v); [cbn; tauto|exact He|exact Hv].
Qed.
Theorem entry_exception name (kw : kwargs) : NoDup (map fst kw) -> (forall k v, given kw k v -> ValOk v) -> ~ Valid kw -> absent kw "type" -> (forall v, given kw "shape" v -> PlainShape v) -> (forall v, given kw "shape" v -> ~ OddShape v) -> entry_init name kw = Err EException.
Proof.
  intros Hn Hok HV Ht HPs Hs. destruct (entry_init name kw) as [ce|x] eqn:E; [exfalso; apply HV; apply (entry_accepts_iff name _ Hn); now exists ce|]. destruct (entry_class name kw x Hn Hok ltac:(split; [intros v Hv; now apply Ht in Hv|exact HPs]) E) as [->|[[_ (v & Hv)]|[_ (v & Hv & Ho)]]]; [reflexivity|now apply Ht in Hv|now apply Hs in Ho].
Qed.
Theorem early_class name (kw : kwargs) : NoDup (map fst kw) ->
  (exists k v, given kw k v /\ ~ In k doc_keywords) \/ (exists k k' v v', In (k, k') doc_conflicts /\ given kw k v /\ given kw k' v') \/ (exists v, given kw "repeat" v /\ forall zs, ~ RepeatArg v zs) -> entry_init name kw = Err EException.
Proof.
  intros Hn H. destruct (forallb (fun k => str_mem (fst k) kws) kw) eqn:K; [|unfold entry_init; now rewrite K]. destruct (existsb (fun c => has (fst c) kw && existsb (fun f => has f kw) (snd c)) forbidden) eqn:F; [unfold entry_init; now rewrite K, F|].
  destruct H as [(k & v & Hg & Hk)|[H|(v & Hg & Hb)]].
  - apply (proj1 (keys_check kw)) with (k := k) (v := v) in K; [contradiction|exact Hg].
  - apply conflict_check in H. congruence.
  - unfold entry_init. rewrite K, F. cbn [negb]. destruct (kw_repeat kw) as [r|x] eqn:E; [|apply repeat_class in E; now subst]. apply (kw_repeat_spec _ _ Hn) in E as [[Ha _]|(v' & Hv' & Hr)]; [now apply Ha in Hg|]. apply (get_given _ _ _ Hn) in Hv', Hg. assert (v' = v) by congruence. subst. now apply Hb in Hr.
Qed.
End ErrClass.

(** entry('P', shape=(2, 2), type='sym') and entry('P', shape=(2, 3), type='symm') *)
Theorem type_refuted : exists name (kw kw' : kwargs nat), NoDup (map fst kw) /\ (forall k v, given kw k v -> ValOk v) /\ given kw "type" (VStr "sym") /\ ~ Valid kw /\ entry_init name kw = Err EType /\
  NoDup (map fst kw') /\ (forall k v, given kw' k v -> ValOk v) /\ given kw' "type" (VStr "symm") /\ ~ Valid kw' /\ entry_init name kw' = Err EType.
Proof.
  exists "P"%string, [("shape"%string, VTuple [VInt 2; VInt 2]); ("type"%string, VStr "sym")], [("shape"%string, VTuple [VInt 2; VInt 3]); ("type"%string, VStr "symm")].
  assert (N : forall a b : kval nat, NoDup (map fst [("shape"%string, a); ("type"%string, b)])) by (intros; repeat constructor; simpl; intuition discriminate).
  assert (V : forall (kw : kwargs nat) x, NoDup (map fst kw) -> entry_init "P" kw = Err x -> ~ Valid kw) by (intros kw x Hn E HV; apply (entry_accepts_iff "P" kw Hn) in HV as (ce & Hc); congruence).
  split; [apply N|]. split; [intros k v [[= <- <-]|[[= <- <-]|[]]]; simpl; auto|]. split; [right; now left|]. split; [apply (V _ EType); [apply N|reflexivity]|]. split; [reflexivity|].
  split; [apply N|]. split; [intros k v [[= <- <-]|[[= <- <-]|[]]]; simpl; auto|]. split; [right; now left|]. split; [apply (V _ EType); [apply N|reflexivity]|reflexivity].
Qed.

