(** The integrator (C65, C66). *)
From Coq Require Import Reals Lra.
From Coquelicot Require Import Coquelicot.
From Verif Require Import PyBase IndexModel DMModel DMProofs StructModel StructSpec StructProofs PowerModel PowerSpec EntryModel StructsModel IneqModel DaeModel DaeSpec DaeThms StructsSpec StructsThms5 StructsThms7 StructsThms11 PowerThms NumModel NumInst NumSpec PolynomialModel PiecewiseModel PdqModel SchemeModel
  PolySpec PiecewiseSpec PdqSpec SchemeSpec PolyMath PolynomialBase PolynomialThms PolynomialThms2 PiecewiseThms PdqThms PdqThms2 SchemeThms SchemeThms2 SchemeThms3.
Open Scope R_scope.

(** ** The structure of unknowns *)
Lemma mk_plain2 (l : list (string * dm R)) : NoDup (map fst l) -> (forall x, In x l -> DmOk (snd x)) ->
  exists o, mk_struct (map (fun x => (fst x, VMat (snd x))) l) = Ok o /\ s_order (cs_struct (so_c o)) = map OName (map fst l) /\
    forall k m, In (k, m) l -> exists mi, cmap_get (top k []) (cs_map (so_c o)) = Some mi /\ dm_sp mi = dm_sp m /\ map (fun i => nth i (flat_map (fun x => dm_nz (snd x)) l) 0) (dm_nz mi) = dm_nz m.
Proof.
  intros Hnd Hok. set (l' := map (fun x => (fst x, (VMat (snd x), snd x))) l).
  assert (Hnd' : NoDup (map fst l')) by (unfold l'; now rewrite map_map). assert (Hok' : forall x, In x l' -> plain_ok x) by (intros x Hx; apply in_map_iff in Hx as (y & <- & Hy); split; [exact (Hok y Hy)|reflexivity]).
  destruct (plain_mx 0 l' Hnd' Hok') as (o & cat & Ho & Hw & Hc & Hent & Hkeys & Hord & Hcat & Hlen & Hg). pose proof (plain_cat 0 l' o cat Hnd' Hok' Ho Hcat) as Ecat.
  assert (Ef : cat = flat_map (fun x => dm_nz (snd x)) l) by (rewrite Ecat; unfold l'; rewrite !flat_map_concat_map, map_map; reflexivity).
  exists o. split; [|split; [rewrite Hord; unfold l'; now rewrite !map_map|]].
  - unfold mk_struct. rewrite (PdqThms.rmapM_map _ (fun kv => plain_item (fst kv, (snd kv, match snd kv with VMat m => m | _ => dm_scalar 0 end)))).
    + cbn [rbind]. rewrite map_map. cbn [fst snd]. unfold l' in Ho. rewrite map_map in Ho. exact Ho.
    + intros kv Hkv. apply in_map_iff in Hkv as (y & <- & _). reflexivity.
  - intros k m Hin. destruct (Hg k (VMat m) m) as [_ G]; [apply in_map_iff; exists (k, m); auto|]. now rewrite Ef in G.
Qed.
Lemma dm_mat_dense (m : mat R) : Shaped (dm_mat (mat_dm m)) (nr m) (nc m) /\ forall i j, (i < nr m)%nat -> (j < nc m)%nat -> at_m (dm_mat (mat_dm m)) i j = at_m m i j.
Proof.
  split; [split; reflexivity|]. intros i j Hi Hj. unfold dm_mat. cbn [at_m]. rewrite (dm_at_nth (mat_dm m) (i + nr m * j) (i, j) (mat_dm_ok m)) by (cbn [mat_dm dm_sp sp_dense sp_pat]; now apply nth_all_pos).
  cbn [mat_dm dm_nz]. rewrite nth_error_map, nth_all_pos by assumption. reflexivity.
Qed.
Lemma mat_dm_len (m : mat R) : length (dm_nz (mat_dm m)) = (nr m * nc m)%nat.
Proof. cbn [mat_dm dm_nz]. now rewrite map_length, all_pos_length. Qed.

Section Unknowns.
Context (nx nz N NM : nat).
Definition ulist (x K Z : mat R) : list (string * dm R) := [("x"%string, mat_dm x); ("K"%string, mat_dm K); ("Z"%string, mat_dm Z)].
Definition uvec (x K Z : mat R) : list R := dm_nz (mat_dm x) ++ dm_nz (mat_dm K) ++ dm_nz (mat_dm Z).
Lemma ulist_ok x K Z : NoDup (map fst (ulist x K Z)) /\ (forall y, In y (ulist x K Z) -> DmOk (snd y)).
Proof. split; [simpl; repeat constructor; simpl; intuition discriminate|]. intros y [<-|[<-|[<-|[]]]]; apply mat_dm_ok. Qed.
Lemma uvec_eq x K Z : flat_map (fun y => dm_nz (snd y)) (ulist x K Z) = uvec x K Z.
Proof. cbn [ulist flat_map snd]. now rewrite app_nil_r. Qed.

Lemma unknowns x K Z o : Shaped x nx (N + 1) -> Shaped K nx NM -> Shaped Z nz NM -> mk_struct (map (fun y => (fst y, VMat (snd y))) (ulist x K Z)) = Ok o ->
  cs_size (so_c o) = (nx * (N + 1) + nx * NM + nz * NM)%nat /\ veccat_master o = Ok (uvec x K Z) /\
  (forall w, length w = cs_size (so_c o) -> exists x' K' Z', sol_parts (so_c o) w = Ok (x', K', Z') /\ Shaped x' nx (N + 1) /\ Shaped K' nx NM /\ Shaped Z' nz NM) /\
  (forall x1 K1 Z1, Shaped x1 nx (N + 1) -> Shaped K1 nx NM -> Shaped Z1 nz NM -> sol_parts (so_c o) (uvec x1 K1 Z1) = Ok (dm_mat (mat_dm x1), dm_mat (mat_dm K1), dm_mat (mat_dm Z1))).
Proof.
  intros [x1 x2] [K1 K2] [Z1 Z2] Ho. destruct (ulist_ok x K Z) as [Hnd Hok]. destruct (mk_plain _ Hnd Hok) as (o' & Ho' & Hw & Hc & He & Hk & Hm & Hlen & _). rewrite Ho in Ho'. injection Ho' as <-. rewrite uvec_eq in Hm, Hlen.
  assert (Hsz : cs_size (so_c o) = (nx * (N + 1) + nx * NM + nz * NM)%nat) by (rewrite <- Hlen; unfold uvec; rewrite !app_length, !mat_dm_len, x1, x2, K1, K2, Z1, Z2; lia).
  split; [exact Hsz|]. split; [exact Hm|].
  assert (Hent : s_entries (cs_struct (so_c o)) = [plain_entry "x" (sp_dense nx (N + 1)); plain_entry "K" (sp_dense nx NM); plain_entry "Z" (sp_dense nz NM)]).
  { rewrite He. cbn [ulist map fst snd mat_dm dm_sp]. now rewrite x1, x2, K1, K2, Z1, Z2. }
  assert (Get : forall w k sp, length w = cs_size (so_c o) -> In (plain_entry k sp) (s_entries (cs_struct (so_c o))) -> forall o2, mx_struct (so_c o) w = Ok o2 ->
    exists mi, cmap_get (top k []) (cs_map (so_c o)) = Some mi /\ dm_sp mi = sp /\ so_get 0 o2 [PStr k] = Ok (RMat (DM sp (map (fun i => nth i w 0) (dm_nz mi))))).
  { intros w k sp Hwl Hin o2 Ho2. destruct (plain_map _ _ k sp Hw Hc Hin) as (mi & Hmi & Hsp & _). exists mi. split; [exact Hmi|]. split; [exact Hsp|].
    destruct (mx_fast_path 0 _ _ w Hw Hc Hwl) as (o3 & Ho3 & _ & Hg & _). rewrite Ho2 in Ho3. injection Ho3 as <-.
    assert (Ha : At (cs_struct (so_c o)) (top k []) (plain_entry k sp)) by exact (At_here (cs_struct (so_c o)) _ [] Hin (Forall2_nil _)).
    assert (Hi : i_get 0 (cs_struct (so_c o)) (pidx (top k [])) = Ok (RIdx mi)) by (rewrite (i_get_at 0 _ _ _ _ Hw Hc Ha), Hmi; reflexivity). rewrite <- Hsp. exact (Hg _ _ mi Ha eq_refl Hi). }
  assert (Ix : In (plain_entry "x" (sp_dense nx (N + 1))) (s_entries (cs_struct (so_c o)))) by (rewrite Hent; now left). assert (IK : In (plain_entry "K" (sp_dense nx NM)) (s_entries (cs_struct (so_c o)))) by (rewrite Hent; right; now left). assert (IZ : In (plain_entry "Z" (sp_dense nz NM)) (s_entries (cs_struct (so_c o)))) by (rewrite Hent; right; right; now left).
  split.
  - intros w Hwl. destruct (mx_fast_path 0 _ _ w Hw Hc Hwl) as (o2 & Ho2 & _). unfold sol_parts, sol_get. rewrite Ho2. cbn [rbind].
    destruct (Get w _ _ Hwl Ix o2 Ho2) as (m1 & _ & _ & E1). destruct (Get w _ _ Hwl IK o2 Ho2) as (m2 & _ & _ & E2). destruct (Get w _ _ Hwl IZ o2 Ho2) as (m3 & _ & _ & E3). change n0 with 0. rewrite E1, E2, E3. cbn [rbind].
    eexists _, _, _. split; [reflexivity|]. repeat split.
  - intros xa Ka Za [xa1 xa2] [Ka1 Ka2] [Za1 Za2]. destruct (ulist_ok xa Ka Za) as [Hnd' Hok']. destruct (mk_plain _ Hnd' Hok') as (o3 & Ho3 & Hw3 & Hc3 & He3 & Hk3 & Hm3 & Hlen3 & _). destruct (mk_plain2 _ Hnd' Hok') as (o4 & Ho4 & Hor & Hmi). rewrite Ho3 in Ho4. injection Ho4 as <-.
    destruct (mk_plain2 _ Hnd Hok) as (o5 & Ho5 & Hor5 & _). rewrite Ho in Ho5. injection Ho5 as <-.
    assert (Es : cs_struct (so_c o3) = cs_struct (so_c o)). { destruct (cs_struct (so_c o3)) as [e3 or3], (cs_struct (so_c o)) as [e5 or5]. cbn [s_entries s_order] in *. rewrite Hor, Hor5, Hent, He3. cbn [ulist map fst snd mat_dm dm_sp]. now rewrite xa1, xa2, Ka1, Ka2, Za1, Za2. }
    rewrite Es in Hc3. rewrite Hc in Hc3. injection Hc3 as Ec. rewrite uvec_eq in Hlen3, Hmi. rewrite <- Ec in Hlen3, Hmi.
    destruct (mx_fast_path 0 _ _ (uvec xa Ka Za) Hw Hc Hlen3) as (o2 & Ho2 & _). unfold sol_parts, sol_get. rewrite Ho2. cbn [rbind].
    destruct (Get _ _ _ Hlen3 Ix o2 Ho2) as (m1 & C1 & S1 & E1). destruct (Get _ _ _ Hlen3 IK o2 Ho2) as (m2 & C2 & S2 & E2). destruct (Get _ _ _ Hlen3 IZ o2 Ho2) as (m3 & C3 & S3 & E3). change n0 with 0. rewrite E1, E2, E3. cbn [rbind].
    destruct (Hmi "x"%string (mat_dm xa)) as (m1' & C1' & _ & V1); [now left|]. rewrite C1 in C1'. injection C1' as <-. destruct (Hmi "K"%string (mat_dm Ka)) as (m2' & C2' & _ & V2); [right; now left|]. rewrite C2 in C2'. injection C2' as <-. destruct (Hmi "Z"%string (mat_dm Za)) as (m3' & C3' & _ & V3); [right; right; now left|]. rewrite C3 in C3'. injection C3' as <-.
    rewrite V1, V2, V3. unfold mat_dm. cbn [dm_nz]. now rewrite xa1, xa2, Ka1, Ka2, Za1, Za2.
Qed.
End Unknowns.

(** Number of structural nonzeros *)
Lemma pat_len pat (m : mat R) : length (dm_nz (mat_dm_pat pat m)) = (length (filter pat (seq 0 (nr m))) * nc m)%nat.
Proof.
  unfold mat_dm_pat, dm_build. cbn [dm_nz]. rewrite map_length. unfold all_pos. generalize (seq 0 (nr m)) as rows. intros rows. replace (nc m) with (length (seq 0 (nc m))) at 2 by apply seq_length. generalize (seq 0 (nc m)) as cols.
  induction cols as [|c cols IH]; [simpl; lia|]. cbn [flat_map]. rewrite flat_map_app, app_length, IH. cbn [length].
  assert (E : length (flat_map (fun p => match (if pat (fst p) then Some (at_m m (fst p) (snd p)) else None) with Some v => [(p, v)] | None => [] end) (map (fun i => (i, c)) rows)) = length (filter pat rows)).
  { clear. induction rows as [|r rows IH]; [reflexivity|]. cbn [map flat_map fst snd filter]. rewrite app_length, IH. destruct (pat r); reflexivity. }
  rewrite E. lia.
Qed.
Lemma filter_all {A} (pat : A -> bool) l : length (filter pat l) = length l <-> forall a, In a l -> pat a = true.
Proof.
  induction l as [|a l IH]; [split; [intros _ a []|reflexivity]|]. cbn [filter]. pose proof (filter_le pat l). destruct (pat a) eqn:E; cbn [length].
  - split; [intros H1 b [<-|Hb]; [exact E|]; apply IH; [lia|exact Hb]|]. intros H1. f_equal. apply IH. intros b Hb. apply H1. now right.
  - split; [lia|]. intros H1. rewrite H1 in E by now left. discriminate.
Qed.

Section Built.
Context (cspts : nat -> string -> res (list R)) (f : daefun R) (t : list R) (order : nat) (method : string) (tau : list R) (g : option (R -> mat R)).
Context (HP : Points cspts order method tau) (HL : (2 <= length t)%nat) (HD : DaeOk f) (HT : TdpOk f g) (Hsq : f_ndae f = (f_nx f + f_nz f)%nat).
Context (rf : (list R -> res (list R)) -> list R -> res (list R)) (nan : R) (x0 z0 : nat -> R) (u p : mat R) (Hu : Shaped u (f_nu f) (ivals t)) (Hp : Shaped p (f_np f) 1).
Notation N := (ivals t).
Notation sch x K Z u p := (scheme_ cspts f t order method g false x K Z u p).
Notation xz := (mzeros (f_nx f) (N + 1)).
Notation Kz := (mzeros (f_nx f) (N * order)).
Notation Zz := (mzeros (f_nz f) (N * order)).

(** The structure of unknowns that the integrator makes *)
Lemma integrator_var : exists s0 var, sch xz Kz Zz (mzeros (f_nu f) N) (mzeros (f_np f) 1) = Ok s0 /\ sc_combine s0 ["x"; "K"; "Z"]%string = Ok var /\
  mk_struct (map (fun y => (fst y, VMat (snd y))) (ulist xz Kz Zz)) = Ok var.
Proof.
  assert (HV : VarsOk f N order false xz Kz Zz (mzeros (f_nu f) N) (mzeros (f_np f) 1)) by (repeat split).
  destruct (scheme_full cspts f t order method tau g false _ _ _ _ _ HP HL HD HT HV) as (s & e & quad & E & EN & EM & Ex & EK & EZ & _). destruct (ulist_ok xz Kz Zz) as [Hnd Hok]. destruct (mk_plain _ Hnd Hok) as (var & Hvar & _).
  exists s, var. split; [exact E|]. split; [|exact Hvar]. unfold sc_combine. cbn [forallb str_mem what_set existsb String.eqb Ascii.eqb Bool.eqb orb andb rassert rbind rmapM]. unfold sc_attr. cbn [String.eqb Ascii.eqb Bool.eqb rbind]. rewrite Ex, EK, EZ. cbn [rbind]. exact Hvar.
Qed.
Lemma residual_value var x K Z w : mk_struct (map (fun y => (fst y, VMat (snd y))) (ulist xz Kz Zz)) = Ok var -> sol_parts (so_c var) w = Ok (x, K, Z) -> VarsOk f N order false x K Z u p ->
  exists s e, sch x K Z u p = Ok s /\ veccat_master (sc_eq s) = Ok e /\ eq_fun cspts f t order method g (so_c var) x0 u p w = Ok (e ++ map (fun i => at_m x i 0 - x0 i) (seq 0 (f_nx f))) /\
    length e = (length (filter (f_pat f) (seq 0 (f_ndae f))) * (N * order) + f_nx f * N)%nat.
Proof.
  intros Hvar Hs HV. destruct (scheme_full cspts f t order method tau g false x K Z u p HP HL HD HT HV) as (s & e & quad & E & _ & _ & _ & _ & _ & _ & _ & _ & _ & _ & _ & _ & _ & _ & _ & _ & _ & _ & _ & _ & _ & _ & _ & Ee & D & C & [D1 D2] & _ & [C1 C2] & _ & _ & Ece & _).
  exists s, e. split; [exact E|]. split; [exact Ee|]. split.
  - unfold eq_fun. rewrite Hs. cbn [rbind]. rewrite E. cbn [rbind]. rewrite Ee. reflexivity.
  - rewrite Ece, !app_length, pat_len, !mat_dm_len, D1, D2, C1, C2. cbn [cs_diff nr nc]. destruct Hp as [_ ->]. simpl. lia.
Qed.

(** ** C65: number of equations *)
Theorem integrator_square s0 var : sch xz Kz Zz (mzeros (f_nu f) N) (mzeros (f_np f) 1) = Ok s0 -> sc_combine s0 ["x"; "K"; "Z"]%string = Ok var ->
  forall w, length w = cs_size (so_c var) -> exists e, eq_fun cspts f t order method g (so_c var) x0 u p w = Ok e /\ (length e <= length w)%nat /\ (length e = length w <-> Full f).
Proof.
  intros Es Ev w Hw. destruct integrator_var as (s0' & var' & Es' & Ev' & Hvar). rewrite Es in Es'. injection Es' as <-. rewrite Ev in Ev'. injection Ev' as <-.
  destruct (unknowns (f_nx f) (f_nz f) N (N * order) xz Kz Zz var) as (Hsz & _ & Hparts & _); try exact Hvar; try (split; reflexivity). destruct (Hparts w Hw) as (x & K & Z & Hs & Sx & SK & SZ).
  destruct (residual_value var x K Z w Hvar Hs) as (s & e & _ & _ & Ee & Le); [split; [exact Sx|]; split; [exact SK|]; split; [exact SZ|]; split; assumption|].
  exists (e ++ map (fun i => at_m x i 0 - x0 i) (seq 0 (f_nx f))). split; [exact Ee|]. rewrite app_length, map_length, seq_length, Le, Hw, Hsz, Hsq.
  pose proof (filter_all (f_pat f) (seq 0 (f_ndae f))) as Hf. pose proof (filter_le (f_pat f) (seq 0 (f_ndae f))) as Hle. rewrite seq_length in Hf, Hle. rewrite Hsq in Hf, Hle. pose proof HP as (_ & _ & _ & Ho). assert (HN : (1 <= N)%nat) by (unfold ivals; lia).
  set (k := length (filter (f_pat f) (seq 0 (f_nx f + f_nz f)))) in *. assert (HNM : (1 <= N * order)%nat) by nia. set (NM := (N * order)%nat) in *. split; [nia|]. split.
  - intros E r Hr. apply Hf; [nia|]. apply in_seq. lia.
  - intros HF. rewrite (proj2 Hf); [nia|]. intros a Ha. apply in_seq in Ha. apply HF. lia.
Qed.

Lemma integrator_eq : exists s0 var w0 e0, sch xz Kz Zz (mzeros (f_nu f) N) (mzeros (f_np f) 1) = Ok s0 /\ sc_combine s0 ["x"; "K"; "Z"]%string = Ok var /\
  length w0 = cs_size (so_c var) /\ eq_fun cspts f t order method g (so_c var) x0 u p w0 = Ok e0 /\
  integrator_ rf nan cspts f t order method g x0 z0 u p =
    if negb (length e0 =? length w0)%nat then Err EException else
    if ((0 <? f_np f) && (0 <? f_nq f))%nat then Err EException else
    let* w := rf (eq_fun cspts f t order method g (so_c var) x0 u p) w0 in
    let* xkz := sol_parts (so_c var) w in let '(x, K, Z) := xkz in
    let* s := sch x K Z u p in
    Ok (IOut (mcols x 1 (nc x)) (repeat nan (f_nz f)) (mcol (sc_q s) (nc (sc_q s) - 1)) (sc_X s) Z (sc_Q s) x K (sc_tc s)).
Proof.
  destruct integrator_var as (s0 & var & Es & Ev & Hvar). unfold integrator_. fold N. rewrite Es. cbn [rbind]. rewrite Ev. cbn [rbind].
  set (xi := Mat (f_nx f) (N + 1) (fun i _ => x0 i)). set (Zi := Mat (f_nz f) (N * order) (fun i _ => z0 i)).
  destruct (ulist_ok xi Kz Zi) as [Hnd Hok]. destruct (mk_plain _ Hnd Hok) as (ow & How & _). change (mk_struct [("x"%string, VMat (mat_dm xi)); ("K"%string, VMat (mat_dm Kz)); ("Z"%string, VMat (mat_dm Zi))]) with (mk_struct (map (fun y => (fst y, VMat (snd y))) (ulist xi Kz Zi))).
  rewrite How. cbn [rbind]. destruct (unknowns (f_nx f) (f_nz f) N (N * order) xi Kz Zi ow) as (_ & Hm & _); try exact How; try (split; reflexivity). rewrite Hm. cbn [rbind].
  destruct (unknowns (f_nx f) (f_nz f) N (N * order) xz Kz Zz var) as (Hsz & _); try exact Hvar; try (split; reflexivity).
  assert (Lw : length (uvec xi Kz Zi) = cs_size (so_c var)) by (unfold uvec; rewrite !app_length, !mat_dm_len, Hsz; cbn [xi Zi mzeros nr nc]; lia).
  destruct (integrator_square s0 var Es Ev _ Lw) as (e0 & E0 & _). rewrite E0. cbn [rbind]. exists s0, var, (uvec xi Kz Zi), e0. repeat (split; [assumption || reflexivity|]). reflexivity.
Qed.

(** When an integrator can be made: the square system is only one of the conditions. *)
Theorem integrator_ok_iff : Answers rf -> (exists out, integrator_ rf nan cspts f t order method g x0 z0 u p = Ok out) <-> Full f /\ (f_np f = 0 \/ f_nq f = 0)%nat.
Proof.
  intros HR. destruct integrator_eq as (s0 & var & w0 & e0 & Es & Ev & Lw & E0 & ->). destruct (integrator_square s0 var Es Ev w0 Lw) as (e0' & E0' & _ & Hsq'). rewrite E0 in E0'. injection E0' as <-.
  destruct (Nat.eqb_spec (length e0) (length w0)) as [El|El]; cbn [negb]; [|split; [intros [? H]; discriminate|intros [HF _]; exfalso; now apply El, Hsq']].
  destruct (Nat.ltb_spec 0 (f_np f)) as [Hnp|Hnp], (Nat.ltb_spec 0 (f_nq f)) as [Hnq|Hnq]; cbn [andb]; try (split; [intros [? H]; discriminate|intros [_ []]; lia]).
  all: (split; [intros _; split; [now apply Hsq'|lia]|intros _]; destruct (HR (eq_fun cspts f t order method g (so_c var) x0 u p) w0) as (w & -> & Lw'); cbn [rbind];
    destruct integrator_var as (s0' & var' & Es' & Ev' & Hvar); rewrite Es in Es'; injection Es' as <-; rewrite Ev in Ev'; injection Ev' as <-;
    destruct (unknowns (f_nx f) (f_nz f) N (N * order) xz Kz Zz var) as (_ & _ & Hparts & _); try exact Hvar; try (split; reflexivity); destruct (Hparts w ltac:(congruence)) as (x & K & Z & -> & Sx & SK & SZ); cbn [rbind];
    destruct (scheme_equations cspts f t order method tau g false x K Z u p HP HL HD HT) as (s & _ & _ & _ & -> & _); [split; [exact Sx|]; split; [exact SK|]; split; [exact SZ|]; split; assumption|]; cbn [rbind]; eauto).
Qed.

(** ** C66: what the integrator returns *)
Theorem integrator_outputs out : RootFinder rf -> integrator_ rf nan cspts f t order method g x0 z0 u p = Ok out ->
  exists s A b, VarsOk f N order false (io_x out) (io_K out) (io_Z out) u p /\ sch (io_x out) (io_K out) (io_Z out) u p = Ok s /\ RungeKutta tau A b /\
    CollocationEqs f t tau order A b false g (io_x out) (io_K out) (io_Z out) u p /\ (forall i, (i < f_nx f)%nat -> at_m (io_x out) i 0 = x0 i) /\
    Shaped (io_xf out) (f_nx f) N /\ (forall i n, at_m (io_xf out) i n = at_m (io_x out) i (n + 1)) /\
    io_X out = sc_X s /\ io_Q out = sc_Q s /\ io_tc out = sc_tc s /\ (forall i, io_qf out i = at_m (sc_q s) i N).
Proof.
  intros HR. destruct integrator_eq as (s0 & var & w0 & e0 & Es & Ev & Lw & E0 & ->). destruct (negb _); [discriminate|]. destruct (_ && _); [discriminate|].
  destruct (rf _ w0) as [w|] eqn:Er; [|discriminate]. cbn [rbind]. destruct (HR _ _ _ Er) as (Lw' & e & Ee & He).
  destruct integrator_var as (s0' & var' & Es' & Ev' & Hvar). rewrite Es in Es'. injection Es' as <-. rewrite Ev in Ev'. injection Ev' as <-.
  destruct (unknowns (f_nx f) (f_nz f) N (N * order) xz Kz Zz var) as (_ & _ & Hparts & _); try exact Hvar; try (split; reflexivity). destruct (Hparts w ltac:(congruence)) as (x & K & Z & Ep & Sx & SK & SZ). rewrite Ep. cbn [rbind].
  assert (HV : VarsOk f N order false x K Z u p) by (split; [exact Sx|]; split; [exact SK|]; split; [exact SZ|]; split; assumption).
  destruct (residual_value var x K Z w Hvar Ep HV) as (s & es & Esch & Em & Ew & _). rewrite Esch. cbn [rbind]. intros [= <-]. cbn [io_x io_K io_Z io_xf io_X io_Q io_tc io_qf].
  destruct (scheme_equations cspts f t order method tau g false x K Z u p HP HL HD HT HV) as (s' & A & b & e' & E' & HRK & _ & _ & _ & _ & _ & _ & Em' & Heq). rewrite Esch in E'. injection E' as <-. rewrite Em in Em'. injection Em' as <-.
  rewrite Ew in Ee. injection Ee as <-. exists s, A, b. split; [exact HV|]. split; [exact Esch|]. split; [exact HRK|]. split; [apply Heq; intros v Hv; apply He, in_app_iff; now left|]. split.
  { intros i Hi. assert (at_m x i 0 - x0 i = 0); [|lra]. apply He, in_app_iff. right. apply in_map_iff. exists i. split; [reflexivity|]. apply in_seq. lia. }
  destruct Sx as [x1 x2]. split; [split; cbn [mcols nr nc]; [exact x1|lia]|]. split; [intros i n; cbn [mcols at_m]; f_equal; lia|]. split; [reflexivity|]. split; [reflexivity|]. split; [reflexivity|].
  destruct (scheme_quadratures cspts f t order method tau g false x K Z u p HP HL HD HT HV) as (s' & _ & _ & E'' & _ & _ & _ & [_ q2] & _). rewrite Esch in E''. injection E'' as <-. intros i. unfold mcol. rewrite q2. f_equal. lia.
Qed.

(** The roots are the solutions of the collocation equations that start at [x0]. *)
Theorem integrator_roots s0 var x K Z : sch xz Kz Zz (mzeros (f_nu f) N) (mzeros (f_np f) 1) = Ok s0 -> sc_combine s0 ["x"; "K"; "Z"]%string = Ok var ->
  VarsOk f N order false x K Z u p -> exists A b e, RungeKutta tau A b /\ eq_fun cspts f t order method g (so_c var) x0 u p (dm_nz (mat_dm x) ++ dm_nz (mat_dm K) ++ dm_nz (mat_dm Z)) = Ok e /\
    ((forall v, In v e -> v = 0) <-> CollocationEqs f t tau order A b false g x K Z u p /\ forall i, (i < f_nx f)%nat -> at_m x i 0 = x0 i).
Proof.
  intros Es Ev HV. destruct integrator_var as (s0' & var' & Es' & Ev' & Hvar). rewrite Es in Es'. injection Es' as <-. rewrite Ev in Ev'. injection Ev' as <-.
  destruct (unknowns (f_nx f) (f_nz f) N (N * order) xz Kz Zz var) as (_ & _ & _ & Hrt); try exact Hvar; try (split; reflexivity). pose proof HV as (Sx & SK & SZ & _). specialize (Hrt x K Z Sx SK SZ).
  destruct (dm_mat_dense x) as [Sx' Vx], (dm_mat_dense K) as [SK' VK], (dm_mat_dense Z) as [SZ' VZ]. destruct Sx as [x1 x2], SK as [K1 K2], SZ as [Z1 Z2]. rewrite x1, x2 in Sx', Vx. rewrite K1, K2 in SK', VK. rewrite Z1, Z2 in SZ', VZ.
  assert (HV' : VarsOk f N order false (dm_mat (mat_dm x)) (dm_mat (mat_dm K)) (dm_mat (mat_dm Z)) u p) by (split; [exact Sx'|]; split; [exact SK'|]; split; [exact SZ'|]; split; assumption).
  destruct (residual_value var _ _ _ _ Hvar Hrt HV') as (s & es & Esch & Em & Ew & _).
  destruct (scheme_equations cspts f t order method tau g false _ _ _ u p HP HL HD HT HV') as (s' & A & b & e' & E' & HRK & _ & _ & _ & _ & _ & _ & Em' & Heq). rewrite Esch in E'. injection E' as <-. rewrite Em in Em'. injection Em' as <-.
  exists A, b. eexists. split; [exact HRK|]. split; [exact Ew|].
  assert (Hsx : forall n j i, (n < N)%nat -> (j < order)%nat -> (i < f_nx f)%nat -> stage_x t order A (dm_mat (mat_dm x)) (dm_mat (mat_dm K)) n j i = stage_x t order A x K n j i).
  { intros n j i Hn Hj Hi. unfold stage_x. rewrite Vx by lia. do 2 f_equal. apply Sum_ext. intros l Hl. rewrite VK by (auto; now apply block_in). reflexivity. }
  assert (HSA : forall n j, (n < N)%nat -> (j < order)%nat -> SameArgs f (stage t tau order A false g (dm_mat (mat_dm x)) (dm_mat (mat_dm K)) (dm_mat (mat_dm Z)) u p n j) (stage t tau order A false g x K Z u p n j)).
  { intros n j Hn Hj. unfold stage. repeat split; cbn [a_xdot a_x a_z a_u a_p a_t a_tdp]; intros i Hi; try reflexivity; [apply VK|apply Hsx|apply VZ]; auto using block_in. }
  assert (EQ : CollocationEqs f t tau order A b false g (dm_mat (mat_dm x)) (dm_mat (mat_dm K)) (dm_mat (mat_dm Z)) u p <-> CollocationEqs f t tau order A b false g x K Z u p).
  { destruct HD as (RD & _). unfold CollocationEqs. split; intros (H1 & H2 & H3); (split; [|split; [|exact H3]]).
    - intros n j r Hn Hj Hr. rewrite <- (RD _ _ r (HSA n j Hn Hj)). now apply H1.
    - intros n i Hn Hi. specialize (H2 n i Hn Hi). rewrite !Vx in H2 by lia. rewrite <- H2. do 2 f_equal. apply Sum_ext. intros l Hl. now rewrite VK by (auto; now apply block_in).
    - intros n j r Hn Hj Hr. rewrite (RD _ _ r (HSA n j Hn Hj)). now apply H1.
    - intros n i Hn Hi. specialize (H2 n i Hn Hi). rewrite !Vx by lia. rewrite <- H2. do 2 f_equal. apply Sum_ext. intros l Hl. now rewrite VK by (auto; now apply block_in). }
  rewrite <- EQ, <- Heq. split.
  - intros H. split; [intros v Hv; apply H, in_app_iff; now left|]. intros i Hi. rewrite <- Vx by lia. assert (at_m (dm_mat (mat_dm x)) i 0 - x0 i = 0); [|lra]. apply H, in_app_iff. right. apply in_map_iff. exists i. split; [reflexivity|]. apply in_seq. lia.
  - intros [H1 H2] v Hv. apply in_app_iff in Hv as [Hv|Hv]; [now apply H1|]. apply in_map_iff in Hv as (i & <- & Hi). apply in_seq in Hi. rewrite Vx, H2 by lia. ring.
Qed.

(** ** integrate *)
Theorem integrate_by_name out pp : Asc t -> InUnit tau -> RootFinder rf -> integrate_ rf nan cspts f t order method g true x0 z0 u p = Ok (out, pp) ->
  integrator_ rf nan cspts f t order method g x0 z0 u p = Ok out /\ PpOk pp (f_nx f) /\ pp_t pp = t /\
  forall n i c, (n <= N)%nat -> (i < f_nx f)%nat -> c = "left"%string \/ c = "right"%string -> ppval pp c i (node t n) = at_m (io_x out) i n.
Proof.
  intros HA HU HR. unfold integrate_. destruct (integrator_ rf nan cspts f t order method g x0 z0 u p) as [out'|] eqn:E; [|discriminate]. cbn [rbind negb].
  destruct (integrator_outputs out' HR E) as (s & A & b & HV & Es & HRK & HCE & _). rewrite Es. cbn [rbind].
  destruct (scheme_equations cspts f t order method tau g false _ _ _ u p HP HL HD HT HV) as (s' & A' & b' & e & Es' & HRK' & _ & _ & _ & _ & _ & _ & Em & Heq). rewrite Es in Es'. injection Es' as <-.
  assert (He : forall v, In v e -> v = 0).
  { apply Heq. destruct HP as (_ & Hd & L & _). assert (U : forall (a a' : nat -> R) c, (forall F, PolyLt (length tau) F -> is_RInt F 0 c (Sum (length tau) (fun j => a j * F (node tau j))) /\ is_RInt F 0 c (Sum (length tau) (fun j => a' j * F (node tau j)))) -> forall l, (l < order)%nat -> a l = a' l).
    { intros a a' c H l Hl. destruct (H (polyval (lagrange tau l))) as [I1 I2]; [apply lagrange_poly; lia|]. apply (is_RInt_unique (V := R_CompleteNormedModule)) in I1. apply (is_RInt_unique (V := R_CompleteNormedModule)) in I2. rewrite I1 in I2.
      rewrite !(Sum_single _ l) in I2; [|lia|intros k Hk Hn; rewrite lagrange_delta by (auto; lia); destruct (Nat.eqb_spec l k); [lia|ring]|lia|intros k Hk Hn; rewrite lagrange_delta by (auto; lia); destruct (Nat.eqb_spec l k); [lia|ring]].
      rewrite lagrange_delta, Nat.eqb_refl in I2 by (auto; lia). lra. }
    assert (UA : forall j l, (j < order)%nat -> (l < order)%nat -> A j l = A' j l) by (intros j l Hj; apply (U _ _ (node tau j)); intros F HF; split; [now apply (HRK F HF); lia|now apply (HRK' F HF); lia]).
    assert (UB : forall l, (l < order)%nat -> b l = b' l) by (apply (U _ _ 1); intros F HF; split; [now apply (HRK F HF)|now apply (HRK' F HF)]).
    destruct HCE as (C1 & C2 & C3). split; [|split; [|exact C3]].
    - intros n j r Hn Hj Hr. rewrite <- (C1 n j r Hn Hj Hr). destruct HD as (RD & _). apply RD. unfold stage. repeat split; cbn [a_xdot a_x a_z a_u a_p a_t a_tdp]. intros i Hi. unfold stage_x. do 2 f_equal. apply Sum_ext. intros l Hl. now rewrite UA.
    - intros n i Hn Hi. rewrite <- (C2 n i Hn Hi). do 2 f_equal. apply Sum_ext. intros l Hl. now rewrite UB. }
  destruct (solution_trajectory cspts f t order method tau g false _ _ _ u p HP HL HD HT HV HA HU s e Es Em He) as (pp' & dp & Epp & _ & HPp & Htt & _ & Hval & _). rewrite Epp. cbn [rbind]. intros [= <- <-]. auto.
Qed.
Theorem integrate_by_position out : integrator_ rf nan cspts f t order method g x0 z0 u p = Ok out -> integrate_ rf nan cspts f t order method g false x0 z0 u p = Err EType.
Proof. intros E. unfold integrate_. rewrite E. reflexivity. Qed.
End Built.
