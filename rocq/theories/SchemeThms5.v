(** DAE objects, [combine], the simulator, save and load (C65, C67-C69). *)
From Coq Require Import Reals Lra.
From Coquelicot Require Import Coquelicot.
From Verif Require Import PyBase IndexModel DMModel DMProofs StructModel StructSpec StructProofs PowerModel PowerSpec EntryModel StructsModel IneqModel IneqThms DaeModel DaeSpec DaeThms StructsSpec EntrySpec EntryProofs StructsThms5 StructsThms7 StructsThms11 PowerThms NumModel NumInst NumSpec PolynomialModel PiecewiseModel PdqModel SchemeModel
  PolySpec PiecewiseSpec PdqSpec SchemeSpec PolyMath PolynomialBase PolynomialThms PolynomialThms2 PiecewiseThms PdqThms PdqThms2 SchemeThms SchemeThms2 SchemeThms3 SchemeThms4.
Open Scope R_scope.

(** ** DAE objects *)
Lemma create_ok assign d f : AssignOk d assign -> create_function assign d = Ok f -> DaeOk f.
Proof.
  intros HA. unfold create_function. destruct (d_kind d) as [| |xdot e]; try discriminate. intros [= <-]. split; [|split]; cbn [f_dae f_quad f_pat].
  - intros a b r (H1 & H2 & H3 & H4 & H5 & H6 & H7). cbn [f_nx f_nz f_nu f_np f_ntdp] in *. now rewrite (HA a b).
  - intros a b r (H1 & H2 & H3 & H4 & H5 & H6 & H7). cbn [f_nx f_nz f_nu f_np f_ntdp] in *. now rewrite (HA a b).
  - intros a r. unfold mx_at. destruct (dm_at (mo_mat e) (r, 0%nat)); [discriminate|reflexivity].
Qed.
Lemma impl_made_fields d : ImplMade d -> exists xdot e, d_kind d = DImpl xdot e /\ MoOk e /\ column e /\ numel e = (numel (d_x d) + numel (d_z d))%nat.
Proof.
  intros (tid & kw & Hk & H). unfold impl_init in H. destruct (dae_init tid kw) as [d0|]; [|discriminate]. cbn [rbind] in H. destruct (dict_get "xdot"%string kw) as [xd|] eqn:Ex; [|discriminate].
  destruct (is_column xd); [|discriminate]. destruct (Nat.eqb_spec (numel (d_x d0)) (numel xd)) as [E1|]; [|discriminate]. cbn [vassert rbind] in H. destruct (dict_get "dae"%string kw) as [e|] eqn:Ed; [|discriminate].
  pose proof (kw_get _ _ _ Hk Ed) as Oe. pose proof (is_column_iff e Oe) as Ce. destruct (is_column e); [|discriminate]. destruct (Nat.eqb_spec (numel (d_z d0) + numel xd) (numel e)) as [E2|]; [|discriminate]. injection H as <-. exists xd, e. split; [reflexivity|]. split; [exact Oe|]. split; [now apply Ce|]. cbn [with_kind d_x d_z]. lia.
Qed.
(** The function of a DAE object: an implicit one, or a semi-explicit one with as many
    algebraic equations as variables. *)
Theorem scheme_fun_spec assign id d : AssignOk d assign -> ImplMade d \/ (SemiMade d /\ exists ode alg, d_kind d = DSemi ode alg /\ numel alg = numel (d_z d)) ->
  exists f, scheme_fun assign id d = Ok f /\ DaeOk f /\ f_nx f = numel (d_x d) /\ f_nz f = numel (d_z d) /\ f_nu f = numel (d_u d) /\ f_np f = numel (d_p d) /\ f_ntdp f = numel (d_tdp d) /\ f_nq f = numel (d_quad d) /\
    f_ndae f = (f_nx f + f_nz f)%nat.
Proof.
  intros HA [Hd|(Hd & ode & alg & Ek & Ha)].
  - destruct (impl_made_fields d Hd) as (xdot & e & Ek & _ & _ & Ne). unfold scheme_fun. rewrite (make_implicit_id d id Hd). cbn [rbind]. unfold create_function at 1. rewrite Ek. eexists. split; [reflexivity|]. split; [apply (create_ok assign d); [exact HA|unfold create_function; now rewrite Ek]|]. cbn. auto 10.
  - destruct (make_implicit_ok d id Hd ode alg Ek Ha) as (e & He & Ne & _). unfold scheme_fun. rewrite He. cbn [rbind]. eexists. split; [reflexivity|]. split; [apply (create_ok assign (DaeObj (d_x d) (d_z d) (d_u d) (d_p d) (d_t d) (d_quad d) (d_tdp d) (DImpl (new_sym id (numel (d_x d))) e))); [exact HA|reflexivity]|]. cbn. auto 10.
Qed.
(** The residual of a semi-explicit DAE: [id] is the symbol that stands for xdot. *)
Theorem scheme_fun_semi assign id d ode alg f : SemiMade d -> d_kind d = DSemi ode alg -> scheme_fun assign id d = Ok f ->
  (forall a i, (i < numel (d_x d))%nat -> f_dae f a i = assign a id i 0%nat - at_ ode i (assign a)) /\ (forall a i, (i < numel (d_z d))%nat -> f_dae f a (numel (d_x d) + i) = at_ alg i (assign a)).
Proof.
  intros Hd Ek Hf. destruct (Nat.eq_dec (numel alg) (numel (d_z d))) as [Ha|Ha].
  - destruct (make_implicit_ok d id Hd ode alg Ek Ha) as (e & He & Ne & _ & V1 & V2). unfold scheme_fun in Hf. rewrite He in Hf. cbn [rbind] in Hf. injection Hf as <-. cbn [f_dae]. split; [intros a i Hi; exact (V1 i (assign a) Hi)|intros a i Hi; exact (V2 i (assign a) Hi)].
  - unfold scheme_fun in Hf. rewrite (make_implicit_no_alg d id ode alg Hd Ek Ha) in Hf. discriminate.
Qed.

(** The residual and the quadratures of a DAE object: those of its expressions. *)
Theorem scheme_fun_impl assign id d xdot e f : ImplMade d -> d_kind d = DImpl xdot e -> scheme_fun assign id d = Ok f ->
  (forall a i, f_dae f a i = at_ e i (assign a)) /\ (forall a i, f_quad f a i = at_ (d_quad d) i (assign a)).
Proof.
  intros Hd Ek Hf. unfold scheme_fun in Hf. rewrite (make_implicit_id d id Hd) in Hf. cbn [rbind] in Hf. unfold create_function in Hf. rewrite Ek in Hf. injection Hf as <-.
  assert (E : forall (m : mobj) i v, mx_at (mo_mat m) (i, 0%nat) v = at_ m i v) by (intros m i v; unfold mx_at, at_, IneqSpec.elem, dm_val; now destruct (dm_at _ _)).
  split; intros a i; cbn [f_dae f_quad]; apply E.
Qed.
Theorem scheme_fun_quad assign id d ode alg f : SemiMade d -> d_kind d = DSemi ode alg -> scheme_fun assign id d = Ok f ->
  forall a i, f_quad f a i = at_ (d_quad d) i (assign a).
Proof.
  intros Hd Ek Hf. destruct (Nat.eq_dec (numel alg) (numel (d_z d))) as [Ha|Ha].
  - destruct (make_implicit_ok d id Hd ode alg Ek Ha) as (e & He & _). unfold scheme_fun in Hf. rewrite He in Hf. cbn [rbind] in Hf. injection Hf as <-. cbn [f_quad d_quad].
    intros a i. unfold mx_at, at_, IneqSpec.elem, dm_val. now destruct (dm_at _ _).
  - unfold scheme_fun in Hf. rewrite (make_implicit_no_alg d id ode alg Hd Ek Ha) in Hf. discriminate.
Qed.

(** ** C67 *)
Lemma mk_kvals (l : list (string * (kval R * dm R))) : (forall x, In x l -> (let* e := entry_ [AName (fst x)] [("expr"%string, fst (snd x))] in Ok (IOne (AEntry e))) = Ok (plain_item x)) ->
  mk_struct (map (fun x => (fst x, fst (snd x))) l) = struct_MX 0 (map plain_item l) None.
Proof.
  intros H. unfold mk_struct. assert (E : rmapM (fun kv => let* e := entry_ [AName (fst kv)] [("expr"%string, snd kv)] in Ok (IOne (AEntry e))) (map (fun x => (fst x, fst (snd x))) l) = Ok (map plain_item l)).
  { induction l as [|x l IH]; [reflexivity|]. cbn [map rmapM fst snd]. rewrite (H x) by now left. cbn [rbind]. rewrite IH by (intros; apply H; now right). reflexivity. }
  rewrite E. reflexivity.
Qed.
Section Built.
Context (cspts : nat -> string -> res (list R)) (f : daefun R) (t : list R) (order : nat) (method : string) (tau : list R) (g : option (R -> mat R)) (rep : bool) (x K Z u p : mat R).
Context (HP : Points cspts order method tau) (HL : (2 <= length t)%nat) (HD : DaeOk f) (HT : TdpOk f g) (HV : VarsOk f (ivals t) order rep x K Z u p).
Notation sch := (scheme_ cspts f t order method g rep x K Z u p).
Context (s : scheme R) (e : list R) (Hs : sch = Ok s) (He : veccat_master (sc_eq s) = Ok e).

Definition part (w : string) : kval R * dm R :=
  if String.eqb w "eq" then (VStructured (cs_struct (so_c (sc_eq s))) (dm_col e), dm_col e) else
  let m := mat_dm (if String.eqb w "K" then sc_K s else if String.eqb w "x" then sc_x s else if String.eqb w "Z" then sc_Z s else if String.eqb w "U" then sc_U s else if String.eqb w "u" then sc_u s else if String.eqb w "p" then sc_p s else sc_q s) in (VMat m, m).
Lemma part_attr w : In w what_set -> sc_attr s w = Ok (fst (part w)) /\ PartOf s e w (snd (part w)) /\ (forall m, PartOf s e w m -> m = snd (part w)) /\ plain_ok (w, part w) /\ (let* en := entry_ [AName w] [("expr"%string, fst (part w))] in Ok (IOne (AEntry en))) = Ok (plain_item (w, part w)).
Proof.
  destruct (scheme_full cspts f t order method tau g rep x K Z u p HP HL HD HT HV) as (s' & e' & quad & E & _ & _ & _ & _ & _ & _ & _ & _ & _ & _ & _ & _ & _ & _ & _ & _ & _ & _ & _ & _ & _ & _ & _ & Ee & D & C & _ & _ & _ & _ & _ & _ & _ & _ & _ & _ & Hw & Hc & Hlen). rewrite Hs in E. injection E as <-. rewrite He in Ee. injection Ee as <-.
  intros Hin. unfold what_set in Hin. simpl in Hin. destruct Hin as [<-|[<-|[<-|[<-|[<-|[<-|[<-|[<-|[]]]]]]]]]; (split; [unfold sc_attr; cbn [String.eqb Ascii.eqb Bool.eqb]; try rewrite He; reflexivity|]; split; [unfold PartOf; cbn; tauto|];
    split; [unfold PartOf; intros m Hm; cbn; intuition congruence|]; split; [split; [cbn [fst snd part String.eqb Ascii.eqb Bool.eqb]; first [apply mat_dm_ok|apply IneqThms.dm_col_ok]|reflexivity]|]; try reflexivity).
  cbn. rewrite Hc. unfold plain_item, plain_entry. simpl. now rewrite Hlen.
Qed.
Lemma combine_eq what : (forall w, In w what -> In w what_set) -> sc_combine s what = struct_MX 0 (map plain_item (map (fun w => (w, part w)) what)) None.
Proof.
  intros Hin. unfold sc_combine. replace (forallb (fun w => str_mem w what_set) what) with true.
  2: { symmetry. apply forallb_forall. intros w Hw. apply existsb_exists. exists w. split; [now apply Hin|apply String.eqb_refl]. }
  cbn [rassert rbind]. rewrite (PdqThms.rmapM_map _ (fun w => (w, fst (part w)))) by (intros w Hw; rewrite (proj1 (part_attr w (Hin w Hw))); reflexivity). cbn [rbind].
  rewrite <- mk_kvals; [now rewrite map_map|]. intros y Hy. apply in_map_iff in Hy as (w & <- & Hw). now apply part_attr, Hin.
Qed.
Theorem combine_parts what : NoDup what -> (forall w, In w what -> In w ["K"; "x"; "Z"; "U"; "u"; "p"; "eq"; "q"]%string) ->
  exists o ms, sc_combine s what = Ok o /\ s_keys (cs_struct (so_c o)) = what /\ Forall2 (PartOf s e) what ms /\ veccat_master o = Ok (flat_map (@dm_nz R) ms) /\
    forall w m, In w what -> PartOf s e w m -> veccat_get 0 o [PStr w] = Ok (RMat m).
Proof.
  intros Hnd Hin. rewrite (combine_eq what Hin). set (l := map (fun w => (w, part w)) what).
  assert (Hf : map fst l = what) by (unfold l; rewrite map_map; apply map_id). assert (Hpl : forall y, In y l -> plain_ok y) by (intros y Hy; unfold l in Hy; apply in_map_iff in Hy as (w & <- & Hw); apply part_attr, Hin, Hw).
  assert (Hnd' : NoDup (map fst l)) by now rewrite Hf. destruct (plain_mx 0 l Hnd' Hpl) as (o & cat & Ho & _ & _ & _ & Hk & _ & Hcat & _ & Hg). pose proof (plain_cat 0 l o cat Hnd' Hpl Ho Hcat) as Ecat.
  exists o, (map (fun w => snd (part w)) what). split; [exact Ho|]. split; [now rewrite Hk, Hf|]. split; [|split].
  - clear - Hin Hs He HP HL HD HT HV. induction what as [|w what IH]; constructor; [apply part_attr, Hin; now left|]. apply IH. intros; apply Hin; now right.
  - rewrite Hcat, Ecat. unfold l. rewrite !flat_map_concat_map, !map_map. reflexivity.
  - intros w m Hw Hm. assert (m = snd (part w)) as -> by now apply part_attr; [apply Hin|]. apply (Hg w (fst (part w))). unfold l. apply in_map_iff. exists w. split; [now destruct (part w)|exact Hw].
Qed.
Theorem combine_accepts what : (exists o, sc_combine s what = Ok o) <-> NoDup what /\ forall w, In w what -> In w ["K"; "x"; "Z"; "U"; "u"; "p"; "eq"; "q"]%string.
Proof.
  split.
  - intros [o Ho]. assert (Hin : forall w, In w what -> In w what_set).
    { intros w Hw. unfold sc_combine in Ho. destruct (forallb (fun w => str_mem w what_set) what) eqn:E; [|discriminate]. rewrite forallb_forall in E. specialize (E w Hw). unfold str_mem in E. apply existsb_exists in E as (v & Hv & E). apply String.eqb_eq in E. now subst v. }
    split; [|exact Hin]. rewrite (combine_eq what Hin) in Ho. set (l := map (fun w => (w, part w)) what) in *.
    assert (Hpl : forall y, In y l -> plain_ok y) by (intros y Hy; unfold l in Hy; apply in_map_iff in Hy as (w & <- & Hw); apply part_attr, Hin, Hw).
    assert (Hit : items_ok (map plain_item l)). { intros it Hi. apply in_map_iff in Hi as (y & <- & Hy). simpl. split; [exact (proj1 (proj1 (Hpl y Hy)))|]. intros ss E. discriminate. }
    unfold struct_MX in Ho. destruct (struct_ (map plain_item l) None) as [[el c]|] eqn:Es; [|discriminate]. assert (Hn : NoDup (arg_names (map plain_item l))) by (apply (proj1 (struct_builds _ Hit)); eauto).
    rewrite plain_names in Hn. unfold l in Hn. rewrite map_map in Hn. cbn [fst] in Hn. now rewrite map_id in Hn.
  - intros [Hnd Hin]. destruct (combine_parts what Hnd Hin) as (o & _ & Ho & _). eauto.
Qed.
End Built.
Theorem combine_rejects (s : scheme R) what w : In w what -> ~ In w ["K"; "x"; "Z"; "U"; "u"; "p"; "eq"; "q"]%string -> sc_combine s what = Err EAssert.
Proof.
  intros Hw Hn. unfold sc_combine. destruct (forallb (fun w => str_mem w what_set) what) eqn:E; [|reflexivity]. rewrite forallb_forall in E. specialize (E w Hw). unfold str_mem in E. apply existsb_exists in E as (v & Hv & E). apply String.eqb_eq in E. subst v. contradiction.
Qed.
(** Two documented names are never accepted. *)
Theorem combine_documented_refuted : exists w, In w documented_parts /\ forall s : scheme R, sc_combine s [w] = Err EAssert.
Proof. exists "x0"%string. split; [now left|]. intros s. apply (combine_rejects s ["x0"%string] "x0"); [now left|]. simpl. intuition discriminate. Qed.
Theorem combine_z_refuted (s : scheme R) : sc_combine s ["z"%string] = Err EAssert.
Proof. apply (combine_rejects s ["z"%string] "z"); [now left|]. simpl. intuition discriminate. Qed.

(** ** C68 *)
Theorem simulator_never {S : Type} colpts (t : list R) poly_order (rest : pdq R -> res S) : forall p, pdq_ colpts t poly_order "chebyshev" = Ok p -> simulator_ colpts t poly_order rest = Err EType.
Proof. intros p E. unfold simulator_. rewrite E. reflexivity. Qed.
Theorem simulator_refuted {S : Type} colpts (t : list R) poly_order (rest : pdq R -> res S) : forall o, simulator_ colpts t poly_order rest <> Ok o.
Proof. intros o. unfold simulator_. destruct (pdq_ _ _ _ _); discriminate. Qed.

(** ** C69 *)
Theorem save_refuted {O : Type} names (dump : O -> string) (parse : string -> res O) o fname fs : ~ In "file"%string names -> save_ names dump o fname fs = Err EName /\ load_ names parse fname fs = Err EName.
Proof.
  intros H. assert (E : str_mem "file" names = false). { destruct (str_mem "file" names) eqn:E; [|reflexivity]. unfold str_mem in E. apply existsb_exists in E as (v & Hv & E). apply String.eqb_eq in E. subst v. contradiction. }
  unfold save_, load_, lookup. rewrite E. split; reflexivity.
Qed.
(** Where the name is known (Python 2) the round trip works. *)
Theorem save_load_partial {O : Type} names (dump : O -> string) (parse : string -> res O) o fname fs : In "file"%string names -> (forall o, parse (dump o) = Ok o) ->
  exists fs', save_ names dump o fname fs = Ok fs' /\ load_ names parse fname fs' = Ok o.
Proof.
  intros H Hr. assert (E : str_mem "file" names = true) by (apply existsb_exists; exists "file"%string; split; [exact H|reflexivity]). unfold save_, load_, lookup. rewrite E. cbn [rbind]. eexists. split; [reflexivity|]. cbn [dict_get]. now rewrite String.eqb_refl.
Qed.

(** ** Binding of arguments (C68) *)
Lemma smem_In n l : str_mem n l = true <-> In n l.
Proof. unfold str_mem. rewrite existsb_exists. split; [intros (y & Hy & E); apply String.eqb_eq in E; now subst|intros H; exists n; split; [exact H|apply String.eqb_refl]]. Qed.

Theorem bind_spec params npos kws : NoDup (map fst params) -> bind_args params npos kws = Ok tt <-> Binds params npos kws.
Proof.
  intros Hnd. unfold bind_args, Binds.
  assert (Hlk : forall k i (d : bool), nth_error params i = Some (k, d) -> nth_error (map fst params) i = Some k)
    by (intros k i d H; now rewrite (map_nth_error fst i params H)).
  assert (HF : forall k, In k (map fst (firstn npos params)) <-> exists i d, (i < npos)%nat /\ nth_error params i = Some (k, d)).
  { intros k. rewrite in_map_iff. split.
    - intros ((k', d) & E & H). simpl in E. subst. apply In_nth_error in H as (i & Hi). exists i, d.
      assert (i < length (firstn npos params))%nat by (apply nth_error_Some; congruence). rewrite firstn_length in H.
      split; [lia|]. rewrite <- (firstn_skipn npos params), nth_error_app1 by (rewrite firstn_length; lia). exact Hi.
    - intros (i & d & Hi & H). exists (k, d). split; [reflexivity|]. apply nth_error_In with i.
      assert (i < length params)%nat by (apply nth_error_Some; congruence).
      rewrite <- (firstn_skipn npos params), nth_error_app1 in H by (rewrite firstn_length; lia). exact H. }
  assert (HS : forall pd, In pd (skipn npos params) <-> exists i, (npos <= i)%nat /\ nth_error params i = Some pd).
  { intros pd. split.
    - intros H. apply In_nth_error in H as (i & Hi). exists (npos + i)%nat. split; [lia|].
      assert (npos <= length params)%nat by (destruct (Nat.le_gt_cases npos (length params)); [assumption|rewrite skipn_all2 in Hi by lia; destruct i; discriminate]).
      rewrite <- (firstn_skipn npos params), nth_error_app2 by (rewrite firstn_length; lia). rewrite firstn_length.
      replace (npos + i - Nat.min npos (length params))%nat with i by lia. exact Hi.
    - intros (i & Hi & H). assert (i < length params)%nat by (apply nth_error_Some; congruence).
      rewrite <- (firstn_skipn npos params), nth_error_app2 in H by (rewrite firstn_length; lia). now apply nth_error_In in H. }
  destruct (Nat.ltb_spec (length params) npos); [split; [discriminate|intros (? & _); lia]|].
  destruct (existsb _ kws) eqn:E1.
  { split; [discriminate|]. intros (_ & Hk & _). exfalso. apply existsb_exists in E1 as (k & Hin & Hm). apply smem_In, HF in Hm as (i & d & Hi & Hp).
    destruct (Hk k Hin) as (j & d' & Hj & Hp'). apply Hlk in Hp, Hp'.
    assert (i = j) by (apply (proj1 (NoDup_nth_error _) Hnd); [apply nth_error_Some; congruence|congruence]). lia. }
  destruct (existsb (fun k => negb _) kws) eqn:E2.
  { split; [discriminate|]. intros (_ & Hk & _). exfalso. apply existsb_exists in E2 as (k & Hin & Hm). apply Bool.negb_true_iff in Hm.
    destruct (Hk k Hin) as (j & d' & Hj & Hp'). apply Hlk, nth_error_In, smem_In in Hp'. congruence. }
  destruct (existsb _ (skipn npos params)) eqn:E3.
  { split; [discriminate|]. intros (_ & _ & Hr). exfalso. apply existsb_exists in E3 as ((n, d) & Hin & Hm). simpl in Hm.
    apply andb_prop in Hm as [Hd Hm]. apply Bool.negb_true_iff in Hd, Hm. subst d. apply HS in Hin as (i & Hi & Hp).
    apply (Hr i n Hi), smem_In in Hp. congruence. }
  split; [intros _|reflexivity]. split; [assumption|]. split.
  - intros k Hin. assert (Hm : str_mem k (map fst params) = true).
    { destruct (str_mem k (map fst params)) eqn:E; [reflexivity|]. exfalso. assert (existsb (fun k => negb (str_mem k (map fst params))) kws = true) by (apply existsb_exists; exists k; split; [exact Hin|now rewrite E]). congruence. }
    apply smem_In, in_map_iff in Hm as ((k', d) & E & Hp). simpl in E. subst k'. apply In_nth_error in Hp as (i & Hi). exists i, d. split; [|exact Hi].
    destruct (Nat.le_gt_cases npos i); [assumption|]. exfalso.
    assert (existsb (fun k => str_mem k (map fst (firstn npos params))) kws = true) by (apply existsb_exists; exists k; split; [exact Hin|apply smem_In, HF; eauto]). congruence.
  - intros i n Hi Hp. apply smem_In. destruct (str_mem n kws) eqn:E; [reflexivity|]. exfalso.
    assert (existsb (fun pd => negb (snd pd) && negb (str_mem (fst pd) kws)) (skipn npos params) = true).
    { apply existsb_exists. exists (n, false). split; [apply HS; eauto|simpl; now rewrite E]. }
    congruence.
Qed.
Theorem bind_total params npos kws : bind_args params npos kws = Ok tt \/ bind_args params npos kws = Err EType.
Proof. unfold bind_args. repeat match goal with |- context[if ?b then _ else _] => destruct b; auto end. Qed.

(** the calls that would have built a scheme: the polynomial order given by position or by name *)
Example bind_scheme_ok : bind_args scheme_sig 3 ["tdp_fun"%string] = Ok tt /\ bind_args scheme_sig 2 ["order"; "tdp_fun"]%string = Ok tt /\ bind_args scheme_sig 2 ["tdp_fun"%string] = Err EType /\
  bind_args scheme_sig 3 ["order"%string] = Err EType /\ bind_args scheme_sig 3 ["poly_order"%string] = Err EType.
Proof. repeat split; reflexivity. Qed.
Example scheme_sig_nodup : NoDup (map fst scheme_sig).
Proof. repeat constructor; simpl; intuition discriminate. Qed.
