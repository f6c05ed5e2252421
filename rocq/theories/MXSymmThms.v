(** C118: symmetric entries in struct_MX. *)
From Verif Require Import PyBase IndexModel DMModel StructModel StructSpec PowerModel PowerSpec
  IndexProofs StructProofs LayoutProofs LayoutThms LayoutExamples DMProofs PowerProofs PowerThms SliceProofs PowerThms2 PowerThms3 PowerThms4 PowerThms5
  EntryModel EntrySpec EntryProofs StructsModel StructsSpec StructsThms1 StructsThms2 StructsThms3 StructsThms4 StructsThms5 StructsThms6.
Open Scope nat_scope.

Section P.
Context {T : Type} (zero : T).
Notation rval := (rval T).
Notation pel := (pel T).
Notation pay := (pay T).
Notation sobj := (sobj T).

Lemma struct_entries (l : list (item_arg T)) order el c : struct_ l order = Ok (el, c) -> el_entries el = arg_entries l.
Proof.
  intros Es. unfold struct_ in Es. destruct (entry_list l order) as [el'|] eqn:Ee; [|discriminate]. cbn [rbind] in Es.
  destruct (entry_list_result l order el' Ee) as (E1 & _). destruct (structure_init _ _) as [s0|]; [|discriminate]. cbn [rbind] in Es.
  destruct (casadi_structure s0); [|discriminate]. cbn [rbind] in Es. congruence.
Qed.
Lemma sets_initial (l : list (item_arg T)) order el c : struct_ l order = Ok (el, c) -> expr_sets el = hist_pi (initial l).
Proof.
  intros Es. unfold expr_sets, initial, hist_pi. rewrite (struct_entries l order el c Es). induction (arg_entries l) as [|ce l' IH]; [reflexivity|]. simpl. rewrite map_app, <- IH. destruct (ce_expr ce); reflexivity.
Qed.

(** Every failure of an assignment is reported as Exception. *)
Lemma travS_class s en md pi ci p st st' x : travS zero s en md pi ci p st = (st', Err x) -> x = EException.
Proof.
  destruct s as [es order]. cbn [travS]. destruct pi; cbn [travS_body]; unfold mwrap; intros H.
  all: match type of H with context [match ?m with _ => _ end] => destruct m as [? [?|?]] end; congruence.
Qed.
Lemma sets_class : forall w (o : sobj) x, veccat_sets zero o w = Err x -> x = EException.
Proof.
  induction w as [|[pi p] w IH]; intros o x H; [discriminate|]. cbn [veccat_sets] in H. destruct (veccat_set zero o pi p) as [o1 [r|y]] eqn:E; [eauto|].
  injection H as <-. unfold veccat_set in E. destruct (travS zero _ _ _ _ _ _ _) as [st [r|z]] eqn:Et; [discriminate|]. injection E as _ <-. eapply travS_class; eauto.
Qed.
Theorem mx_class (l : list (item_arg T)) order el c x : struct_ l order = Ok (el, c) -> struct_MX zero l order = Err x -> x = EException.
Proof.
  intros Es H. unfold struct_MX in H. rewrite Es in H. cbn [rbind] in H. destruct (forallb has_expr (el_entries el)); cbn [negb] in H; [|congruence].
  eapply sets_class; eauto.
Qed.

(** The expression of an entry is the last value assigned when the object is new. *)
Lemma initial_last (l : list (item_arg T)) order o : items_ok l -> OrderOk l order -> struct_MX zero l order = Ok o ->
  forall ce v path x, In ce (arg_entries l) -> ce_expr ce = Some v -> Reach v path x -> LastAssigned (initial l ++ []) (ce_name ce) path (pay_of_val x).
Proof.
  intros Hit Hor H ce v path x Hce Hv Hreach. unfold struct_MX in H. destruct (struct_ l order) as [[el c]|] eqn:Es; [|discriminate]. cbn [rbind] in H.
  destruct (forallb has_expr (el_entries el)) eqn:Ea; [|discriminate]. destruct (proj2 (struct_builds_order l order Hit Hor) el c Es) as (Hw & Hc & Hel & Hent & _).
  rewrite app_nil_r.
  assert (Hin : In (ce_name ce, [], pay_of_val v) (initial l)).
  { unfold initial. apply in_flat_map. exists ce. split; [exact Hce|]. rewrite Hv. now left. }
  apply in_split in Hin as (h1 & h2 & Eh). exists h1, [], path, (pay_of_val v), h2. split; [exact Eh|]. split; [reflexivity|].
  split; [exact (reach_item v path x Hreach)|]. intros y Hy [Hc1 _].
  assert (Hnd : NoDup (map (fun y => fst (fst y)) (initial l))).
  { assert (En : map (fun y => fst (fst y)) (initial l) = map ce_name (arg_entries l)).
    { rewrite (struct_entries l order el c Es) in Ea. clear -Ea. unfold initial. induction (arg_entries l) as [|ce l' IH]; [reflexivity|]. simpl in Ea. apply andb_true_iff in Ea as [E1 E2].
      unfold has_expr in E1. simpl. destruct (ce_expr ce); [|discriminate]. simpl. f_equal. auto. }
    rewrite En. pose proof (Wf_NoDup _ Hw) as Hn. rewrite Hent, map_map in Hn. exact Hn. }
  rewrite Eh, map_app in Hnd. apply NoDup_app_disj in Hnd as [_ Hnd]. inversion Hnd as [|? ? Hni _]. apply Hni. cbn [fst].
  apply in_map_iff. exists y. split; [exact Hc1|exact Hy].
Qed.

(** C23's theorem for any order of the entries *)
Theorem mx_cat_order (l : list (item_arg T)) order (h : hist) (o o' : sobj) :
  items_ok l -> OrderOk l order -> (forall ce v, In ce (arg_entries l) -> ce_expr ce = Some v -> PayOk (pay_of_val v)) ->
  struct_MX zero l order = Ok o -> HistOk (cs_struct (so_c o)) h -> veccat_sets zero o (hist_pi h) = Ok o' ->
  so_c o' = so_c o /\
  exists cat, veccat_master o' = Ok cat /\ length cat = cs_size (so_c o) /\
  forall e idx q, In e (s_entries (cs_struct (so_c o))) -> InDims idx (e_dims e) -> LastAssigned (initial l ++ h) (e_name e) idx q ->
    exists M m, q = PayMat M /\ i_get zero (cs_struct (so_c o)) (pidx (top (e_name e) idx)) = Ok (RIdx m) /\
      dm_sp M = dm_sp m /\ map (fun k => nth k cat zero) (dm_nz m) = dm_nz M /\
      (e_symm e = false -> veccat_get zero o' (pidx (top (e_name e) idx)) = Ok (RMat M)).
Proof.
  intros Hit Hor Hok H Hh H'. unfold struct_MX in H.
  destruct (struct_ l order) as [[el c]|] eqn:Es; [|discriminate]. cbn [rbind] in H.
  destruct (forallb has_expr (el_entries el)) eqn:Ea; [|discriminate]. cbn [negb] in H.
  destruct (proj2 (struct_builds_order l order Hit Hor) el c Es) as (Hw & Hc & Hel & Hent & _).
  assert (Hpi : expr_sets el = hist_pi (initial l)).
  { unfold expr_sets, initial, hist_pi. rewrite Hel. clear. induction (arg_entries l) as [|ce l' IH]; [reflexivity|]. simpl. rewrite map_app, <- IH. destruct (ce_expr ce); reflexivity. }
  set (s := cs_struct c) in *.
  assert (Hinit : HistOk s (initial l)).
  { intros x Hx. unfold initial in Hx. apply in_flat_map in Hx as (ce & Hce & Hx). destruct (ce_expr ce) as [v|] eqn:Ev; [|destruct Hx].
    destruct Hx as [<-|[]]. split; [exact (Hok ce v Hce Ev)|]. exists (ce_entry ce), [], (e_dims (ce_entry ce)). split; [rewrite Hent; now apply in_map|].
    split; [reflexivity|]. split; [reflexivity|constructor]. }
  assert (Hoc : so_c o = c).
  { rewrite Hpi in H. exact (proj1 (veccat_history zero s c (initial l) o Hw Hc Hinit H)). }
  assert (Hall : veccat_sets zero (veccat_init c) (hist_pi (initial l ++ h)) = Ok o').
  { unfold hist_pi. rewrite map_app. fold (hist_pi (initial l)) (hist_pi h). rewrite veccat_sets_app, <- Hpi, H. exact H'. }
  assert (Hok2 : HistOk s (initial l ++ h)).
  { intros x Hx. apply in_app_iff in Hx as [Hx|Hx]; [auto|]. rewrite Hoc in Hh. exact (Hh x Hx). }
  destruct (veccat_history zero s c _ o' Hw Hc Hok2 Hall) as (A & B & _).
  rewrite Hoc. split; [exact A|]. destruct B as (cat & B1 & B2 & B3).
  { intros e jdx He Hj. rewrite Hent in He. apply in_map_iff in He as (ce & <- & Hce).
    pose proof Ea as Ea2. rewrite Hel in Ea2. pose proof (proj1 (forallb_forall _ _) Ea2 ce Hce) as Hex. unfold has_expr in Hex.
    destruct (ce_expr ce) as [v|] eqn:Ev; [|discriminate].
    exists (ce_name ce, [], pay_of_val v). split.
    - apply in_app_iff. left. unfold initial. apply in_flat_map. exists ce. split; [exact Hce|]. rewrite Ev. now left.
    - split; [reflexivity|]. exists jdx. reflexivity. }
  exists cat. split; [exact B1|]. split; [exact B2|]. intros e idx q He Hi Hl. fold s in He |- *.
  destruct (B3 e idx q He Hi Hl) as (M & m & -> & Hm & Hsp & Hv). exists M, m. split; [reflexivity|].
  split; [pose proof (i_get_at zero s c (top (e_name e) idx) e Hw Hc (At_here s e idx He Hi)) as X; rewrite Hm in X; exact X|]. split; [exact Hsp|]. split; [exact Hv|]. intros Hsy.
  assert (Henv : so_env o' = venv c).
  { change (veccat_init c) with (SObj c (venv c) (so_st (veccat_init (T := T) c))) in Hall.
    destruct (veccat_sets_flat zero s c Hw (cs_struct_eq _ _ Hw Hc) _ _ _ Hok2 Hall) as (_ & E & _). exact E. }
  rewrite (veccat_read zero s c o' cat e idx m Hw Hc A Henv B1 B2 He Hi Hsy Hm). do 2 f_equal. destruct M as [sp nz]. unfold vals, dm_map. cbn [dm_sp dm_nz] in Hsp, Hv |- *. now rewrite <- Hsp, Hv.
Qed.

Lemma mx_wf (l : list (item_arg T)) order o : items_ok l -> OrderOk l order -> (forall ce v, In ce (arg_entries l) -> ce_expr ce = Some v -> PayOk (pay_of_val v)) -> struct_MX zero l order = Ok o ->
  exists el c, struct_ l order = Ok (el, c) /\ so_c o = c /\ Wf (cs_struct c) /\ casadi_structure (cs_struct c) = Ok c /\ s_entries (cs_struct c) = map ce_entry (arg_entries l).
Proof.
  intros Hit Hor Hok H. pose proof H as H0. unfold struct_MX in H0. destruct (struct_ l order) as [[el c]|] eqn:Es; [|discriminate]. cbn [rbind] in H0.
  destruct (proj2 (struct_builds_order l order Hit Hor) el c Es) as (Hw & Hc & Hel & Hent & _). destruct (forallb has_expr (el_entries el)); [|discriminate]. cbn [negb] in H0.
  exists el, c. split; [reflexivity|]. split; [|auto]. rewrite (sets_initial l order el c Es) in H0.
  refine (proj1 (veccat_history zero (cs_struct c) c (initial l) o Hw Hc _ H0)).
  intros x Hx. unfold initial in Hx. apply in_flat_map in Hx as (ce & Hce & Hx). destruct (ce_expr ce) as [v|] eqn:Ev; [|destruct Hx].
  destruct Hx as [<-|[]]. split; [exact (Hok ce v Hce Ev)|]. exists (ce_entry ce), [], (e_dims (ce_entry ce)). split; [rewrite Hent; now apply in_map|].
  split; [reflexivity|]. split; [reflexivity|constructor].
Qed.

(** ** Refused expressions *)
Theorem mx_expr_refused (l : list (item_arg T)) order el c ce v path x sp M :
  items_ok l -> OrderOk l order -> (forall ce v, In ce (arg_entries l) -> ce_expr ce = Some v -> PayOk (pay_of_val v)) -> struct_ l order = Ok (el, c) ->
  In ce (arg_entries l) -> ce_expr ce = Some v -> e_struct (ce_entry ce) = None -> Regular v (e_dims (ce_entry ce)) -> Reach v path x -> MatrixOf x sp -> pay_of_val x = PayMat M ->
  dm_sp M <> e_sp (ce_entry ce) -> struct_MX zero l order = Err EException.
Proof.
  intros Hit Hor Hok Es Hce Hv Hst Hreg Hr Hx HM Hne. destruct (struct_MX zero l order) as [o|y] eqn:E; [exfalso|f_equal; eapply mx_class; eauto].
  destruct (mx_cat_order l order [] o o Hit Hor Hok E) as (_ & cat & Hm & _ & G); [intros ? []|reflexivity|].
  destruct (mx_wf l order o Hit Hor Hok E) as (el' & c' & Es' & Hoc & Hw & Hc & Hent).
  assert (Hin : In (ce_entry ce) (s_entries (cs_struct (so_c o)))) by (rewrite Hoc, Hent; now apply in_map).
  assert (Hi : InDims path (e_dims (ce_entry ce))) by (eapply regular_in; eauto).
  destruct (G (ce_entry ce) path (pay_of_val x) Hin Hi (initial_last l order o Hit Hor E ce v path x Hce Hv Hr)) as (M' & m & EM & A & B & _).
  rewrite HM in EM. injection EM as <-. rewrite Hoc in Hin, A.
  rewrite (i_get_at zero (cs_struct c') c' (top (e_name (ce_entry ce)) path) (ce_entry ce) Hw Hc (At_here _ _ _ Hin Hi)) in A.
  destruct (map_get_leaf (cs_struct c') c' (top (e_name (ce_entry ce)) path) (ce_entry ce) Hw Hc (Leaf_prim _ _ _ Hin Hst Hi)) as (m' & Hm' & Hsp). rewrite Hm' in A. injection A as <-. congruence.
Qed.
Theorem mx_symm_refused (l : list (item_arg T)) order el c ce v path x sp M n orig a b :
  items_ok l -> OrderOk l order -> (forall ce v, In ce (arg_entries l) -> ce_expr ce = Some v -> PayOk (pay_of_val v)) -> struct_ l order = Ok (el, c) ->
  In ce (arg_entries l) -> ce_expr ce = Some v -> SymmEntry (ce_entry ce) n orig -> Regular v (e_dims (ce_entry ce)) -> Reach v path x -> MatrixOf x sp -> pay_of_val x = PayMat M ->
  b < a -> In (a, b) (sp_pat (dm_sp M)) -> struct_MX zero l order = Err EException.
Proof.
  intros Hit Hor Hok Es Hce Hv Hse Hreg Hr Hx HM Hlt Hin. eapply mx_expr_refused; eauto; [apply Hse|]. intros E. rewrite E, (se_sp _ _ _ Hse) in Hin. cbn [sp_pat] in Hin.
  apply filter_In in Hin as [_ Hin]. cbn [fst snd] in Hin. apply Nat.leb_le in Hin. lia.
Qed.

(** ** Reading *)
Lemma veccat_read_symm s c (o : sobj) cat e n orig idx m : Wf s -> casadi_structure s = Ok c -> so_c o = c -> so_env o = venv c -> veccat_master o = Ok cat -> length cat = cs_size c ->
  In e (s_entries s) -> InDims idx (e_dims e) -> SymmEntry e n orig -> cmap_get (top (e_name e) idx) (cs_map c) = Some m ->
  exists R, veccat_get zero o (pidx (top (e_name e) idx)) = Ok (RMat R) /\ DmOk R /\ dm_shape R = (n, n) /\ forall p, dm_at R p = mirror (vals zero cat m) p.
Proof.
  intros Hw Hc E1 E2 Hm Hlen He Hi Hs Hg. unfold veccat_get. rewrite Hm, E1, E2. cbn [rbind]. rewrite (cs_struct_eq _ _ Hw Hc). unfold getitem.
  rewrite <- (app_nil_r (pidx (top (e_name e) idx))), (travS_at zero s (top (e_name e) idx) e (At_here s e idx He Hi) Hw).
  destruct (map_ok s c _ m Hw Hc Hg) as (_ & Hd & _ & Hb & _).
  pose proof (At_here s e idx He Hi) as Ha.
  pose proof (sy_nr s c _ e n orig m Hw Hc Ha Hs Hg) as Nr. pose proof (sy_nc s c _ e n orig m Hw Hc Ha Hs Hg) as Nc.
  simpl. unfold mwrap, getter. simpl. fold (top (e_name e) idx). rewrite Hg. simpl. rewrite (se_symm _ _ _ Hs). unfold mbind. simpl.
  rewrite (vec_get_ok zero); [|rewrite Nr, Nc; destruct (n =? 1); reflexivity|unfold inb; now rewrite Hlen].
  destruct (triu_ok (vals zero cat m) n) as (R & HR & R1 & R2 & R3).
  - destruct Hd as [D1 D2]. split; [exact D1|]. unfold vals, dm_map. cbn [dm_nz dm_sp]. now rewrite map_length.
  - exact Nr.
  - exact Nc.
  - unfold vals, dm_map. cbn [dm_sp]. rewrite (sy_sp s c _ e n orig m Hw Hc Ha Hs Hg), (se_sp _ _ _ Hs). cbn [sp_pat]. apply Forall_forall. intros p Hp. apply filter_In in Hp as [_ Hp]. now apply Nat.leb_le.
  - exists R. cbn [rbind]. rewrite HR. cbn. auto.
Qed.

Theorem mx_symm_reads (l : list (item_arg T)) order (h : hist) (o o' : sobj) :
  items_ok l -> OrderOk l order -> (forall ce v, In ce (arg_entries l) -> ce_expr ce = Some v -> PayOk (pay_of_val v)) ->
  struct_MX zero l order = Ok o -> HistOk (cs_struct (so_c o)) h -> veccat_sets zero o (hist_pi h) = Ok o' ->
  forall e n orig idx q, In e (s_entries (cs_struct (so_c o))) -> SymmEntry e n orig -> InDims idx (e_dims e) -> LastAssigned (initial l ++ h) (e_name e) idx q ->
    exists M R, q = PayMat M /\ (forall a b, In (a, b) (sp_pat (dm_sp M)) <-> In (a, b) (sp_pat orig) /\ a <= b) /\
      veccat_get zero o' (pidx (top (e_name e) idx)) = Ok (RMat R) /\ DmOk R /\ dm_shape R = (n, n) /\
      (forall a b, a <= b -> dm_at R (a, b) = dm_at M (a, b) /\ dm_at R (b, a) = dm_at M (a, b)).
Proof.
  intros Hit Hor Hok H Hh H' e n orig idx q He Hs Hi Hl.
  destruct (mx_cat_order l order h o o' Hit Hor Hok H Hh H') as (Hc' & cat & Hm & Hlen & G).
  destruct (G e idx q He Hi Hl) as (M & m & -> & A & B & C & _).
  destruct (mx_wf l order o Hit Hor Hok H) as (el & c & Es & Hoc & Hw & Hc & Hent). rewrite Hoc in *.
  rewrite (i_get_at zero (cs_struct c) c (top (e_name e) idx) e Hw Hc (At_here _ _ _ He Hi)) in A.
  destruct (cmap_get (top (e_name e) idx) (cs_map c)) as [m'|] eqn:Eg; [|discriminate]. injection A as ->.
  assert (Henv : so_env o' = venv c).
  { unfold struct_MX in H. rewrite Es in H. cbn [rbind] in H. destruct (forallb has_expr (el_entries el)); [|discriminate]. cbn [negb] in H.
    rewrite (sets_initial l order el c Es) in H.
    assert (Hall : veccat_sets zero (veccat_init c) (hist_pi (initial l ++ h)) = Ok o').
    { unfold hist_pi. rewrite map_app. fold (hist_pi (initial l)) (hist_pi h). rewrite veccat_sets_app, H. exact H'. }
    change (veccat_init c) with (SObj c (venv c) (so_st (veccat_init (T := T) c))) in Hall.
    assert (Hok2 : HistOk (cs_struct c) (initial l ++ h)); [|destruct (veccat_sets_flat zero (cs_struct c) c Hw eq_refl _ _ _ Hok2 Hall) as (_ & E & _); exact E].
    intros x Hx. apply in_app_iff in Hx as [Hx|Hx]; [|exact (Hh x Hx)].
    unfold initial in Hx. apply in_flat_map in Hx as (ce & Hce & Hx). destruct (ce_expr ce) as [v|] eqn:Ev; [|destruct Hx].
    destruct Hx as [<-|[]]. split; [exact (Hok ce v Hce Ev)|]. exists (ce_entry ce), [], (e_dims (ce_entry ce)). split; [rewrite Hent; now apply in_map|].
    split; [reflexivity|]. split; [reflexivity|constructor]. }
  destruct (veccat_read_symm (cs_struct c) c o' cat e n orig idx m Hw Hc Hc' Henv Hm Hlen He Hi Hs Eg) as (R & R1 & R2 & R3 & R4).
  assert (EM : vals zero cat m = M). { destruct M as [sp nz]. unfold vals, dm_map. cbn [dm_sp dm_nz] in B, C |- *. now rewrite <- B, C. }
  rewrite EM in R4. exists M, R. split; [reflexivity|]. split.
  { intros a b. rewrite B, (sy_sp (cs_struct c) c _ e n orig m Hw Hc (At_here _ _ _ He Hi) Hs Eg), (se_sp _ _ _ Hs). cbn [sp_pat]. rewrite filter_In. cbn [fst snd]. rewrite Nat.leb_le. reflexivity. }
  split; [exact R1|]. split; [exact R2|]. split; [exact R3|]. intros a b Hab. rewrite !R4. split; [|rewrite mirror_sym]; unfold mirror; cbn [fst snd]; rewrite (proj2 (Nat.leb_le a b) Hab); reflexivity.
Qed.

(** ** Accepted expressions *)
Lemma flat_inject_back (en : env T) ei sub n (v : kval T) ds : Regular v ds -> forall idx st st',
  inj_seq en (flatW n ds idx (pay_of_val v)) st = (st', true) -> exists r, travD zero en ei sub ds MInject [] (top n idx) (pay_of_val v) st = (st', Ok r).
Proof.
  induction 1 as [v sp Hv|l ds Hall IH]; intros idx st st' H.
  - cbn [travD]. cbn [flatW inj_seq] in H. unfold mwrap. cbn [dispatch].
    destruct (inject en (pay_of_val v) (top n idx) None st) as [st1 [r1|x]]; [|discriminate]. injection H as <-. eauto.
  - cbn [travD]. unfold mwrap at 1.
    rewrite slice_range_all by lia. unfold mbind at 1, mlift at 1. unfold pyrange. rewrite map_map. cbn [flatW] in H.
    match goal with |- context [mmapM ?g _] => set (step := g) end. set (p := pay_of_val (VList l)) in *.
    assert (G : forall w st, (forall i, In i w -> i < length l) -> inj_seq en (flat_map (fun i => match item p i with Some q => flatW n ds (idx ++ [Z.of_nat i]) q
                                     | None => [(top n (idx ++ [Z.of_nat i]), None)] end) w) st = (st', true) ->
      exists rs, mmapM step (map (fun x => KI (Z.of_nat x)) w) st = (st', Ok rs)).
    { clear H st. induction w as [|i w IHw]; intros st Hw H.
      - simpl in H. injection H as ->. exists []. reflexivity.
      - cbn [map mmapM]. cbn [flat_map] in H. rewrite inj_seq_app in H. unfold mbind at 1. unfold step at 1. rewrite unpack_item.
        assert (Ei : exists x, In x l /\ item p i = Some (pay_of_val x)).
        { destruct (nth_error l i) as [x|] eqn:Ex; [|apply nth_error_None in Ex; specialize (Hw i (or_introl eq_refl)); lia].
          exists x. split; [eapply nth_error_In; eauto|]. unfold p. cbn [pay_of_val item]. now apply map_nth_error. }
        destruct Ei as (x & Hx & Ei). rewrite Ei in H |- *. unfold mbind at 1, mlift at 1.
        assert (Et : top n idx ++ [KI (canonical (Z.of_nat i) (Z.of_nat (length l)))] = top n (idx ++ [Z.of_nat i])).
        { unfold top. rewrite map_app. simpl. unfold canonical. destruct (Z.ltb_spec (Z.of_nat i) 0); [lia|reflexivity]. }
        rewrite Et. destruct (inj_seq en (flatW n ds (idx ++ [Z.of_nat i]) (pay_of_val x)) st) as [st1 [|]] eqn:E1; [|discriminate].
        destruct (IH x Hx _ _ _ E1) as [r1 ->]. destruct (IHw st1 (fun j Hj => Hw j (or_intror Hj)) H) as [rs Hrs]. unfold mbind. rewrite Hrs. eexists. reflexivity. }
    assert (Hseq : forall i, In i (seq 0 (Z.to_nat (Z.of_nat (length l)))) -> i < length l) by (intros i Hi; apply in_seq in Hi; lia).
    destruct (G _ _ Hseq H) as [rs Hrs]. unfold mbind. rewrite Hrs. eexists. reflexivity.
Qed.
Lemma inj_seq_total (en : env T) : forall l st,
  (forall ci q, In (ci, q) l -> exists M k mi, q = Some (PayMat M) /\ cmap_get ci (en_mapping en) = Some k /\ cmap_get ci (en_map en) = Some mi /\ dm_sp mi = dm_sp M) ->
  exists st', inj_seq en l st = (st', true).
Proof.
  induction l as [|[ci q] l IH]; intros st H; [eexists; reflexivity|].
  destruct (H ci q (or_introl eq_refl)) as (M & k & mi & -> & Hk & Hmi & Hsp). cbn [inj_seq]. unfold inject. rewrite Hk, Hmi.
  rewrite (proj2 (spy_eqb_eq _ _) Hsp). apply IH. intros; apply H; now right.
Qed.
Lemma regular_flat n (v : kval T) ds : Regular v ds -> forall idx ci q, In (ci, q) (flatW n ds idx (pay_of_val v)) ->
  exists path x sp, ci = top n (idx ++ path) /\ Reach v path x /\ MatrixOf x sp /\ q = Some (pay_of_val x).
Proof.
  induction 1 as [v sp Hv|l dims Hall IH]; intros idx ci q Hin.
  - destruct Hin as [Hin|[]]. injection Hin as <- <-. exists [], v, sp. rewrite app_nil_r. split; [reflexivity|]. split; [constructor|]. split; [exact Hv|reflexivity].
  - cbn [flatW] in Hin. apply in_flat_map in Hin as (i & Hi & Hin). apply in_seq in Hi. cbn [pay_of_val item] in Hin.
    destruct (nth_error l i) as [w|] eqn:Ew; [|apply nth_error_None in Ew; lia]. rewrite (map_nth_error _ _ _ Ew) in Hin.
    destruct (IH w (nth_error_In _ _ Ew) _ _ _ Hin) as (path & x & sp & -> & Hr & Hm & ->). exists (Z.of_nat i :: path), x, sp.
    rewrite <- app_assoc. split; [reflexivity|]. split; [econstructor; eauto|]. split; [exact Hm|reflexivity].
Qed.
Lemma reach_matrix (v : kval T) ds : Regular v ds -> forall path x M, Reach v path x -> pay_of_val x = PayMat M -> exists sp, MatrixOf x sp.
Proof.
  induction 1 as [v sp Hv|l dims Hall IH]; intros path x M Hr HM.
  - inversion Hr; subst; [eauto|]. inversion Hv.
  - inversion Hr; subst; [discriminate|]. eapply IH; eauto. eapply nth_error_In; eauto.
Qed.
Lemma veccat_set_regular s c st e (v : kval T) : Wf s -> casadi_structure s = Ok c -> In e (s_entries s) -> e_struct e = None -> Regular v (e_dims e) ->
  (forall path x M, Reach v path x -> pay_of_val x = PayMat M -> dm_sp M = e_sp e) ->
  exists st' r, veccat_set zero (SObj c (venv c) st) [PStr (e_name e)] (pay_of_val v) = (SObj c (venv c) st', Ok r).
Proof.
  intros Hw Hc He Hst Hreg Hall. pose proof (cs_struct_eq _ _ Hw Hc) as Es. unfold veccat_set. cbn [so_c so_env so_st]. rewrite Es.
  rewrite travS_name by (auto using Wf_NoDup). rewrite mwrap_travD. cbn [app].
  destruct (inj_seq_total (venv c) (flatW (e_name e) (e_dims e) [] (pay_of_val v)) st) as (st' & Hst').
  { intros ci q Hin. destruct (regular_flat (e_name e) v _ Hreg [] ci q Hin) as (path & x & sp & -> & Hr & Hm & ->). cbn [app].
    assert (Hi : InDims path (e_dims e)) by (eapply regular_in; eauto).
    assert (HM : exists M, pay_of_val x = PayMat M) by (destruct Hm; eexists; reflexivity). destruct HM as [M HM].
    destruct (In_nth_error _ _ (proj2 (in_tops s _ Hw) (ex_intro _ e (ex_intro _ path (conj He (conj Hi eq_refl)))))) as [k Hk].
    apply (mapping_get (T := T) s c _ k Hw Es) in Hk.
    destruct (map_get_leaf s c (top (e_name e) path) e Hw Hc (Leaf_prim _ _ _ He Hst Hi)) as (m & Hm' & Hsp).
    exists M, k, m. split; [now rewrite HM|]. split; [exact Hk|]. split; [exact Hm'|]. rewrite Hsp. symmetry. eauto. }
  destruct (flat_inject_back (venv c) (info zero e) (subT zero e) (e_name e) v (e_dims e) Hreg [] st st' Hst') as [r Hr].
  cbn [map]. change [KS (e_name e)] with (top (e_name e) []). rewrite Hr. eauto.
Qed.
Theorem mx_accepts (l : list (item_arg T)) order el c :
  items_ok l -> OrderOk l order -> (forall ce v, In ce (arg_entries l) -> ce_expr ce = Some v -> PayOk (pay_of_val v)) -> struct_ l order = Ok (el, c) ->
  (forall ce, In ce (arg_entries l) -> e_struct (ce_entry ce) = None /\ exists v, ce_expr ce = Some v /\ Regular v (e_dims (ce_entry ce))) ->
  ((exists o, struct_MX zero l order = Ok o) <->
   forall ce v path x sp M, In ce (arg_entries l) -> ce_expr ce = Some v -> Reach v path x -> MatrixOf x sp -> pay_of_val x = PayMat M -> dm_sp M = e_sp (ce_entry ce)).
Proof.
  intros Hit Hor Hok Es Hpl. destruct (proj2 (struct_builds_order l order Hit Hor) el c Es) as (Hw & Hc & Hel & Hent & _). split.
  - intros [o Ho] ce v path x sp M Hce Hv Hr Hx HM. destruct (Hpl ce Hce) as (Hst & v' & Hv' & Hreg). rewrite Hv in Hv'. injection Hv' as <-.
    destruct (spy_eqb (dm_sp M) (e_sp (ce_entry ce))) eqn:E; [now apply spy_eqb_eq|exfalso].
    assert (X : struct_MX zero l order = Err EException); [|congruence].
    eapply (mx_expr_refused l order el c ce v path x sp M); eauto. intros E2. rewrite E2 in E. rewrite (proj2 (spy_eqb_eq _ _) eq_refl) in E. discriminate.
  - intros Hall. unfold struct_MX. rewrite Es. cbn [rbind].
    assert (Ea : forallb has_expr (el_entries el) = true).
    { rewrite (struct_entries l order el c Es). apply forallb_forall. intros ce Hce. destruct (Hpl ce Hce) as (_ & v & Hv & _). unfold has_expr. now rewrite Hv. }
    rewrite Ea. cbn [negb]. unfold expr_sets. rewrite (struct_entries l order el c Es).
    assert (G : forall w st, (forall ce, In ce w -> In ce (arg_entries l)) -> exists o, veccat_sets zero (SObj c (venv c) st) (flat_map (fun ce => match ce_expr ce with Some v => [([PStr (ce_name ce)], pay_of_val v)] | None => [] end) w) = Ok o).
    { induction w as [|ce w IH]; intros st Hin; [eexists; reflexivity|]. pose proof (Hin ce (or_introl eq_refl)) as Hce. destruct (Hpl ce Hce) as (Hst & v & Hv & Hreg).
      cbn [flat_map]. rewrite Hv. cbn [app veccat_sets].
      assert (He : In (ce_entry ce) (s_entries (cs_struct c))) by (rewrite Hent; now apply in_map).
      destruct (veccat_set_regular (cs_struct c) c st (ce_entry ce) v Hw Hc He Hst Hreg) as (st' & r & E).
      { intros path x M Hr HM. destruct (reach_matrix v _ Hreg path x M Hr HM) as [sp Hsp]. eauto. }
      unfold ce_name. rewrite E. apply IH. intros y Hy. apply Hin. now right. }
    change (veccat_init c) with (SObj c (venv c) (so_st (veccat_init (T := T) c))). apply G. auto.
Qed.
End P.
