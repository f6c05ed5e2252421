(** C118: one entry [entry(name, expr=E, type='symm')] in struct_MX and in struct_SX. *)
From Verif Require Import PyBase IndexModel DMModel StructModel StructSpec PowerModel PowerSpec
  IndexProofs StructProofs LayoutProofs LayoutThms LayoutExamples DMProofs PowerProofs PowerThms SliceProofs PowerThms2 PowerThms3 PowerThms4 PowerThms5
  EntryModel EntrySpec EntryProofs StructsModel StructsSpec StructsThms1 StructsThms2 StructsThms3 StructsThms4 StructsThms5 StructsThms6 StructsThms7 PowerExamples StructsExamples StructsSymThms MXSymmThms.
Open Scope nat_scope.

Section P.
Context {T : Type} (zero : T).
Notation sobj := (sobj T).

Lemma no_order (l : list (item_arg T)) : OrderOk l None. Proof. intros o [=]. Qed.
Definition symm_kw (E : dm T) : kwargs T := [("expr"%string, VMat E); ("type"%string, VStr "symm")].
Lemma symm_kw_nodup E : NoDup (map fst (symm_kw E)).
Proof. repeat constructor; simpl; intuition discriminate. Qed.
Lemma symm_kw_ok E : DmOk E -> forall k v, given (symm_kw E) k v -> ValOk v.
Proof. intros HE k v [H|[H|[]]]; injection H as <- <-; simpl; [apply HE|exact I]. Qed.
Lemma symm_made name E ce : DmOk E -> entry_init name (symm_kw E) = Ok ce ->
  e_name (ce_entry ce) = name /\ e_dims (ce_entry ce) = [] /\ e_struct (ce_entry ce) = None /\ ce_expr ce = Some (VMat E) /\ SymmEntry (ce_entry ce) (dm_nr E) (dm_sp E) /\ EntryOk (ce_entry ce).
Proof.
  intros HE H. pose proof (entry_proper name _ ce (symm_kw_nodup E) (symm_kw_ok E HE) H) as Hok.
  pose proof (entry_symm name _ ce (symm_kw_nodup E) (symm_kw_ok E HE) H) as Hsy. revert H Hok Hsy.
  unfold entry_init, symm_kw. cbn -[sp_inter sp_upper]. destruct (sp_nr (dm_sp E) =? sp_nc (dm_sp E)) eqn:Eq; cbn -[sp_inter sp_upper]; [|discriminate].
  destruct (sp_inter _ _) as [sp'|] eqn:Ei; [|discriminate]. cbn -[sp_inter sp_upper]. intros H Hok Hsy. injection H as <-. cbn in *.
  destruct (Hsy eq_refl eq_refl) as (n & orig & Hs). pose proof (se_orig _ _ _ Hs) as Ho. cbn in Ho. injection Ho as <-.
  pose proof (se_rows _ _ _ Hs) as Hr. unfold dm_nr. subst n. repeat split; auto; apply Hs || apply Hok.
Qed.

Theorem mx_symm_iff name (E : dm T) ce : DmOk E -> entry_init name (symm_kw E) = Ok ce ->
  ((exists o, struct_MX zero [IOne (AEntry ce)] None = Ok o) <-> forall a b, In (a, b) (sp_pat (dm_sp E)) -> a <= b) /\
  ((exists a b, In (a, b) (sp_pat (dm_sp E)) /\ b < a) -> struct_MX zero [IOne (AEntry ce)] None = Err EException).
Proof.
  intros HE H. destruct (symm_made name E ce HE H) as (Hn & Hd & Hst & Hex & Hs & Hok).
  assert (Hit : items_ok [IOne (AEntry ce)]) by (intros it [<-|[]]; exact Hok).
  assert (Hae : arg_entries [IOne (AEntry ce)] = [ce]) by reflexivity.
  assert (Hpay : forall ce' v, In ce' (arg_entries [IOne (AEntry ce)]) -> ce_expr ce' = Some v -> PayOk (pay_of_val v)).
  { rewrite Hae. intros ce' v [<-|[]] Hv. rewrite Hex in Hv. injection Hv as <-. exact HE. }
  destruct (proj2 (proj1 (struct_builds [IOne (AEntry ce)] Hit))) as (el & c & Es); [repeat constructor; simpl; tauto|].
  assert (Hiff : (exists o, struct_MX zero [IOne (AEntry ce)] None = Ok o) <-> forall a b, In (a, b) (sp_pat (dm_sp E)) -> a <= b).
  { rewrite (mx_accepts zero _ None el c Hit (no_order _) Hpay Es).
    - rewrite Hae. split.
      + intros G a b Hab. rewrite (G ce _ [] _ (dm_sp E) E (or_introl eq_refl) Hex (Reach_here _) (MO_mat E) eq_refl), (se_sp _ _ _ Hs) in Hab. cbn [sp_pat] in Hab. apply filter_In in Hab as [_ Hab]. now apply Nat.leb_le in Hab.
      + intros G ce' v path x sp M [<-|[]] Hv Hr Hx HM. rewrite Hex in Hv. injection Hv as <-. inversion Hr; subst. injection HM as <-. rewrite (se_sp _ _ _ Hs).
        pose proof (se_rows _ _ _ Hs) as Er. pose proof (se_cols _ _ _ Hs) as Ec. clear Hx. destruct (dm_sp E) as [r k pat]. cbn [sp_nr sp_nc sp_pat] in *. rewrite Er, Ec. f_equal. symmetry.
        clear -G. induction pat as [|[a b] pat IH]; [reflexivity|]. cbn [filter fst snd]. rewrite (proj2 (Nat.leb_le a b) (G a b (or_introl eq_refl))). f_equal. apply IH. intros; apply G; now right.
    - rewrite Hae. intros ce' [<-|[]]. split; [exact Hst|]. exists (VMat E). split; [exact Hex|]. rewrite Hd. econstructor. constructor. }
  split; [exact Hiff|]. intros (a & b & Hab & Hlt). destruct (struct_MX zero [IOne (AEntry ce)] None) as [o|x] eqn:Em; [|f_equal; eapply mx_class; eauto].
  pose proof (proj1 Hiff (ex_intro _ o eq_refl) a b Hab). lia.
Qed.

(** Expressions given to struct_SX are kept: as C35's [expr_struct_reads], with symmetric entries. *)
Theorem sx_reads nan (l : list (item_arg T)) (o : sobj) :
  items_ok l -> (forall ce, In ce (arg_entries l) -> SymmOk (ce_entry ce)) ->
  (forall ce v, In ce (arg_entries l) -> ce_expr ce = Some v -> PayOk (pay_of_val v)) -> struct_SX zero nan l = Ok o ->
  forall ce v path x sp, In ce (arg_entries l) -> ce_expr ce = Some v -> Regular v (e_dims (ce_entry ce)) -> Reach v path x -> MatrixOf x sp ->
    exists sp' R, IdxSp (ce_entry ce) sp' /\ so_get zero o (pidx (top (ce_name ce) path)) = Ok (RMat R) /\ Keeps zero (ce_entry ce) (pay_of_val x) sp' R.
Proof.
  intros Hit Hsy Hok H ce v path x sp Hce Hv Hreg Hreach Hx. unfold struct_SX in H.
  destruct (struct_ l None) as [[el c]|] eqn:Es; [|discriminate]. cbn [rbind] in H.
  destruct (forallb has_expr (el_entries el)) eqn:Ea; [|discriminate]. cbn [negb numeric_struct rbind] in H.
  destruct (proj2 (struct_builds l Hit) el c Es) as (Hw & Hc & Hent & Hkeys & _). pose proof (struct_entries l None el c Es) as Hel.
  rewrite expr_sets_kv in H. set (s := cs_struct c) in *.
  assert (Hnames : map fst (expr_kv el) = map ce_name (arg_entries l)).
  { unfold expr_kv. rewrite Hel in *. clear -Ea. induction (arg_entries l) as [|ce l' IH]; [reflexivity|]. simpl in Ea. apply andb_true_iff in Ea as [E1 E2].
    unfold has_expr in E1. simpl. destruct (ce_expr ce); [|discriminate]. simpl. f_equal. auto. }
  assert (Hkv : forall y, In y (expr_kv el) -> exists ce v, In ce (arg_entries l) /\ ce_expr ce = Some v /\ y = (ce_name ce, pay_of_val v)).
  { intros y Hy. unfold expr_kv in Hy. apply in_flat_map in Hy as (ce0 & H0 & Hy). rewrite Hel in H0. destruct (ce_expr ce0) as [v0|] eqn:E0; [|destruct Hy].
    destruct Hy as [<-|[]]. eauto. }
  assert (Hentry : forall ce, In ce (arg_entries l) -> In (ce_entry ce) (s_entries s)) by (intros; rewrite Hent; now apply in_map).
  destruct (names_readsS zero s c (so_st (start nan c)) (expr_kv el) o) as (_ & _ & _ & Hr).
  - now apply start_Obj.
  - reflexivity.
  - rewrite Hnames. pose proof (Wf_NoDup _ Hw) as Hn. rewrite Hent, map_map in Hn. exact Hn.
  - intros y Hy. destruct (Hkv y Hy) as (ce0 & v0 & H0 & Hv0 & ->). cbn [fst snd]. split; [eapply Hok; eauto|]. exists (ce_entry ce0). auto.
  - exact H.
  - destruct (Hr (ce_name ce) (pay_of_val v) (ce_entry ce) path) as (q & sp' & R & Hq & Hsp & HR & HH); auto.
    + unfold expr_kv. apply in_flat_map. exists ce. rewrite Hel. split; [exact Hce|]. rewrite Hv. now left.
    + eapply regular_in; eauto.
    + rewrite (reach_item v path x Hreach) in Hq. injection Hq as <-. eauto.
Qed.

(** struct_SX takes every such entry, and gives the upper triangle mirrored. *)
Theorem sx_symm_accepts nan name (E : dm T) ce : DmOk E -> entry_init name (symm_kw E) = Ok ce ->
  exists o R, struct_SX zero nan [IOne (AEntry ce)] = Ok o /\ so_get zero o [PStr name] = Ok (RMat R) /\
    (forall a b, a <= b -> dm_at R (a, b) = dm_at E (a, b) /\ dm_at R (b, a) = dm_at E (a, b)) /\
    ((forall a b, dm_at E (a, b) = dm_at E (b, a)) -> R = E).
Proof.
  intros HE H. destruct (symm_made name E ce HE H) as (Hn & Hd & Hst & Hex & Hs & Hok).
  assert (Hit : items_ok [IOne (AEntry ce)]) by (intros it [<-|[]]; exact Hok).
  destruct (proj2 (proj1 (struct_builds [IOne (AEntry ce)] Hit))) as (el & c & Es); [repeat constructor; simpl; tauto|].
  destruct (proj2 (struct_builds _ Hit) el c Es) as (Hw & Hc & Hent & _).
  pose proof (struct_entries _ None el c Es) as Hel. change (arg_entries [IOne (AEntry ce)]) with [ce] in Hel, Hent.
  unfold struct_SX. rewrite Es. cbn [rbind]. rewrite Hel. unfold expr_sets. rewrite Hel. cbn [forallb flat_map]. unfold has_expr. rewrite Hex. cbn [andb negb numeric_struct rbind app so_sets].
  set (st := PState (repeat nan (cs_size c)) [] []).
  assert (Ho : Obj (cs_struct c) c st) by (split; [exact Hw|exact Hc|apply repeat_length]).
  assert (Ha : At (cs_struct c) (top (e_name (ce_entry ce)) []) (ce_entry ce)) by (apply At_here; [rewrite Hent; now left|rewrite Hd; constructor]).
  destruct (symm_write zero (cs_struct c) c st _ (ce_entry ce) (dm_nr E) (dm_sp E) (PayMat E) E Ho Ha Hs) as (st' & r & R & A & B & C & D & _); [exact HE|reflexivity|reflexivity|].
  unfold so_set. cbn [so_c so_env so_st]. change [PStr (ce_name ce)] with (@pidx T (top (e_name (ce_entry ce)) [])). cbn [pay_of_val].
  change (Env (cs_map c) [] KPlain []) with (num_env (T := T) c). rewrite A. eexists. exists R. split; [reflexivity|]. split; [|split; assumption].
  unfold so_get. cbn [so_c so_env so_st]. rewrite <- Hn. exact B.
Qed.
End P.

(** ** Examples: a symmetric entry "P" beside a column "x". *)
Open Scope Z_scope.
Definition exP (E : dm Z) : centry Z := match entry_init "P" (symm_kw E) with Ok ce => ce | Err _ => CEntry (mk "P" [] (sp_dense 1 1)) None None end.
Definition exX : centry Z := match entry_init "x" [("expr"%string, VMat (col [8; 9]))] with Ok ce => ce | Err _ => CEntry (mk "x" [] (sp_dense 1 1)) None None end.
Definition exU : dm Z := DM (sp_upper 2) [1; 2; 3].
Definition exF : dm Z := DM (sp_dense 2 2) [1; 2; 2; 3].
Example exP_made : entry_init "P" (symm_kw exU) = Ok (exP exU) /\ entry_init "P" (symm_kw exF) = Ok (exP exF). Proof. split; reflexivity. Qed.
Definition exl (E : dm Z) : list (item_arg Z) := [IOne (AEntry (exP E)); IOne (AEntry exX)].
(** An upper triangular expression is accepted, and read back symmetric; so is a new one. *)
Example mx_symm_ex : exists o o', struct_MX 0 (exl exU) None = Ok o /\ veccat_get 0 o [PStr "P"] = Ok (RMat exF) /\
  veccat_sets 0 o [([PStr "P"], PayMat (DM (sp_upper 2) [4; 5; 6]))] = Ok o' /\ veccat_get 0 o' [PStr "P"] = Ok (RMat (DM (sp_dense 2 2) [4; 5; 5; 6])) /\
  veccat_master o' = Ok [4; 5; 6; 8; 9].
Proof. do 2 eexists. split; [vm_compute; reflexivity|]. split; [vm_compute; reflexivity|]. split; [vm_compute; reflexivity|]. split; vm_compute; reflexivity. Qed.
Lemma exl_ok : items_ok (exl exU) /\ (forall ce v, In ce (arg_entries (exl exU)) -> ce_expr ce = Some v -> PayOk (pay_of_val v)) /\ SymmEntry (ce_entry (exP exU)) 2 (sp_upper 2).
Proof.
  assert (HU : DmOk exU) by (split; [solve_spok2|reflexivity]).
  destruct (symm_made "P" exU (exP exU) HU (proj1 exP_made)) as (_ & _ & _ & Hex & Hs & Hok). split; [|split; [|exact Hs]].
  - intros it [<-|[<-|[]]]; [exact Hok|]. simpl. split; [apply (SpOk_dense 2 1)|discriminate].
  - intros ce v [<-|[<-|[]]] Hv; injection Hv as <-; [exact HU|]. apply (dm_col_ok [8; 9]).
Qed.
Example mx_symm_hist : exists o, struct_MX 0 (exl exU) None = Ok o /\ HistOk (cs_struct (so_c o)) [("P"%string, [], PayMat (DM (sp_upper 2) [4; 5; 6]))] /\
  LastAssigned (initial (exl exU) ++ [("P"%string, [], PayMat (DM (sp_upper 2) [4; 5; 6]))]) "P" [] (PayMat (DM (sp_upper 2) [4; 5; 6])).
Proof.
  eexists. split; [vm_compute; reflexivity|]. split.
  - intros x [<-|[]]. split; [split; [solve_spok2|reflexivity]|]. eexists. exists [], []. split; [left; reflexivity|]. repeat split; try reflexivity. constructor.
  - eexists (_ :: _ :: nil), [], [], _, []. split; [reflexivity|]. split; [reflexivity|]. split; [reflexivity|]. intros x [].
Qed.
(** A full symmetric expression is refused by struct_MX and kept by struct_SX. *)
Theorem mx_full_refuted : exists E ce o, DmOk E /\ (forall a b, dm_at E (a, b) = dm_at E (b, a)) /\ entry_init "P" (symm_kw E) = Ok ce /\
  struct_MX 0 [IOne (AEntry ce)] None = Err EException /\ struct_SX 0 0 [IOne (AEntry ce)] = Ok o /\ so_get 0 o [PStr "P"] = Ok (RMat E).
Proof.
  assert (HF : DmOk exF) by (split; [apply (SpOk_dense 2 2)|reflexivity]).
  assert (HS : forall a b, dm_at exF (a, b) = dm_at exF (b, a)) by (intros [|[|a]] [|[|b]]; reflexivity).
  destruct (sx_symm_accepts 0 0 "P" exF _ HF (proj2 exP_made)) as (o & R & A & B & _ & D). rewrite (D HS) in B.
  exists exF, (exP exF), o. split; [exact HF|]. split; [exact HS|]. split; [exact (proj2 exP_made)|]. split; [vm_compute; reflexivity|]. split; assumption.
Qed.

(** Repeats: [entry('P', expr=[U, U'], type='symm')]. *)
Definition exR : centry Z := match entry_init "P" [("expr"%string, VList [VMat exU; VMat (DM (sp_upper 2) [4; 5; 6])]); ("type"%string, VStr "symm")] with Ok ce => ce | Err _ => CEntry (mk "P" [] (sp_dense 1 1)) None None end.
Example exR_regular : ce_expr exR = Some (VList [VMat exU; VMat (DM (sp_upper 2) [4; 5; 6])]) /\ Regular (VList [VMat exU; VMat (DM (sp_upper 2) [4; 5; 6])]) (e_dims (ce_entry exR)) /\ e_struct (ce_entry exR) = None.
Proof. split; [reflexivity|]. split; [|reflexivity]. apply (Regular_list [VMat exU; VMat (DM (sp_upper 2) [4; 5; 6])] []). intros v [<-|[<-|[]]]; econstructor; constructor. Qed.
Example mx_repeat_ex : exists o o', struct_MX 0 [IOne (AEntry exR)] None = Ok o /\ veccat_get 0 o [PStr "P"; PInt 1] = Ok (RMat (DM (sp_dense 2 2) [4; 5; 5; 6])) /\
  struct_SX 0 0 [IOne (AEntry exR)] = Ok o' /\ so_get 0 o' [PStr "P"; PInt 1] = Ok (RMat (DM (sp_dense 2 2) [4; 5; 5; 6])).
Proof. do 2 eexists. split; [vm_compute; reflexivity|]. split; [vm_compute; reflexivity|]. split; vm_compute; reflexivity. Qed.
(** An order that turns the entries around. *)
Example mx_order_ex : OrderOk (exl exU) (Some [OName "x"; OName "P"]) /\
  exists o, struct_MX 0 (exl exU) (Some [OName "x"; OName "P"]) = Ok o /\ veccat_master o = Ok [8; 9; 1; 2; 3] /\ veccat_get 0 o [PStr "P"] = Ok (RMat exF) /\ veccat_get 0 o [PStr "x"] = Ok (RMat (col [8; 9])).
Proof.
  split; [intros o [= <-]; apply Permutation.perm_swap|]. eexists. split; [vm_compute; reflexivity|]. split; [vm_compute; reflexivity|]. split; vm_compute; reflexivity.
Qed.
