(** The model of a collocation scheme computes the expected matrices. *)
From Coq Require Import Reals Lra.
From Coquelicot Require Import Coquelicot.
From Verif Require Import PyBase IndexModel DMModel DMProofs StructModel StructSpec PowerModel EntryModel StructsModel StructsSpec StructsThms11 NumModel NumInst NumSpec PolynomialModel PiecewiseModel PdqModel SchemeModel
  PolySpec PiecewiseSpec PdqSpec SchemeSpec PolyMath PolynomialBase PolynomialThms PolynomialThms2 PiecewiseThms PdqThms PdqThms2.
Open Scope R_scope.

(** ** Matrices *)
Lemma cs_mtimes_spec (a b : mat R) : nc a = nr b -> exists m, cs_mtimes a b = Ok m /\ nr m = nr a /\ nc m = nc b /\
  forall i j, (i < nr a)%nat -> (j < nc b)%nat -> at_m m i j = Sum (nc a) (fun k => at_m a i k * at_m b k j).
Proof.
  intros H. unfold cs_mtimes. destruct (Nat.eqb_spec (nr a) 1) as [A1|A1], (Nat.eqb_spec (nc a) 1) as [A2|A2]; cbn [andb].
  { eexists. split; [reflexivity|]. cbn [nr nc at_m]. split; [lia|]. split; [reflexivity|]. intros i j Hi Hj. rewrite A2. assert (i = 0%nat) by lia. subst i. simpl. rnum. ring. }
  all: destruct (Nat.eqb_spec (nr b) 1) as [B1|B1], (Nat.eqb_spec (nc b) 1) as [B2|B2]; cbn [andb];
    try (eexists; split; [reflexivity|]; cbn [nr nc at_m]; split; [reflexivity|]; split; [lia|]; intros i j Hi Hj; assert (j = 0%nat) by lia; subst j; replace (nc a) with 1%nat by lia; simpl; rnum; ring);
    unfold mdot; rewrite H, Nat.eqb_refl; eexists; (split; [reflexivity|]); cbn [nr nc at_m]; (split; [reflexivity|]); (split; [reflexivity|]); intros i j Hi Hj; rewrite nsum_Sum; apply Sum_ext; intros; rnum; ring.
Qed.
Lemma cs_elem_spec f (a b : mat R) r c : Shaped a r c -> Shaped b r c -> exists m, cs_elem f a b = Ok m /\ Shaped m r c /\ forall i j, at_m m i j = f (at_m a i j) (at_m b i j).
Proof. intros [A1 A2] [B1 B2]. unfold cs_elem. rewrite A1, A2, B1, B2, !Nat.eqb_refl. cbn [andb]. eexists. split; [reflexivity|]. split; [split; reflexivity|]. reflexivity. Qed.

Lemma divmod n m j : (j < m)%nat -> ((n * m + j) / m = n /\ (n * m + j) mod m = j)%nat.
Proof. intros H. rewrite (Nat.add_comm (n * m)). split; [rewrite Nat.div_add, Nat.div_small by lia; lia|rewrite Nat.mod_add, Nat.mod_small by lia; reflexivity]. Qed.
Lemma div_out k n m : (0 < m)%nat -> (k < n * m \/ n * m + m <= k)%nat -> (k / m <> n)%nat.
Proof. intros Hm H E. pose proof (Nat.div_mod k m ltac:(lia)). pose proof (Nat.mod_upper_bound k m ltac:(lia)). subst n. nia. Qed.
Lemma block_in n N M j : (n < N)%nat -> (j < M)%nat -> (n * M + j < N * M)%nat.
Proof. nia. Qed.

(** The contribution of a diagonal of blocks *)
Lemma Sum_blocks N M n (h : nat -> R) (g : nat -> R) (w : nat -> R) : (n < N)%nat -> (1 <= M)%nat ->
  Sum (N * M) (fun k => g k * ((if Nat.eqb (k / M) n then h n else 0) * w (k mod M)%nat)) = h n * Sum M (fun l => w l * g (n * M + l)%nat).
Proof.
  intros Hn HM. rewrite (Sum_block _ (n * M) M); [|nia|].
  - rewrite <- Sum_scal. apply Sum_ext. intros l Hl. destruct (divmod n M l Hl) as [-> ->]. rewrite Nat.eqb_refl. ring.
  - intros k Hk Ho. destruct (Nat.eqb_spec (k / M) n) as [E|]; [|ring]. exfalso. now apply (div_out k n M) in Ho.
Qed.

Lemma int_points_spec tb h M (x K : mat R) N : length h = N -> (1 <= N)%nat -> (1 <= M)%nat -> nr (tb_A tb) = M -> nc (tb_A tb) = M -> nr K = nr x -> nc x = (N + 1)%nat -> nc K = (N * M)%nat ->
  exists X, int_points tb h M x K = Ok X /\ Shaped X (nr x) (N * M) /\
    forall i n j, (i < nr x)%nat -> (n < N)%nat -> (j < M)%nat -> at_m X i (n * M + j) = at_m x i n + vget h n * Sum M (fun l => at_m (tb_A tb) j l * at_m K i (n * M + l)%nat).
Proof.
  intros Lh HN HM A1 A2 KR xC KC. unfold int_points. replace (nc x - 1)%nat with N by lia.
  destruct (cs_mtimes_spec (mcols x 0 N) (mkron (meye (length h)) (mones 1 M))) as (a & -> & a1 & a2 & Ha). { cbn [mcols mkron meye mones nr nc]. lia. }
  destruct (cs_mtimes_spec K (mkron (mdiag h) (mtr (tb_A tb)))) as (b & -> & b1 & b2 & Hb). { cbn [mkron mdiag mtr nr nc]. rewrite A2, KC, Lh. reflexivity. }
  cbn [rbind]. cbn [mcols mkron meye mones mdiag mtr nr nc] in a1, a2, b1, b2.
  destruct (cs_elem_spec nadd a b (nr x) (N * M)) as (X & EX & SX & HX); [split; nia|split; nia|]. exists X. split; [exact EX|]. split; [exact SX|]. intros i n j Hi Hn Hj.
  assert (Hb0 : (n * M + j < N * M)%nat) by now apply block_in. rewrite HX, Ha, Hb; [|lia|cbn [mkron mdiag mtr nc]; rewrite A1, Lh; lia|exact Hi|cbn [mkron meye mones nc]; rewrite Lh; lia]. rnum. f_equal.
  - cbn [mcols mkron meye mones nr nc at_m]. rewrite Nat.sub_0_r. rewrite (Sum_single _ n _ Hn).
    + rewrite Nat.div_1_r. destruct (divmod n M j Hj) as [-> _]. rewrite Nat.eqb_refl. rnum. rewrite Nat.add_0_l. ring.
    + intros k Hk Hkn. rewrite Nat.div_1_r. destruct (divmod n M j Hj) as [-> _]. destruct (Nat.eqb_spec k n); [contradiction|]. rnum. ring.
  - cbn [mkron mdiag mtr nr nc at_m]. rewrite A1, A2, KC. destruct (divmod n M j Hj) as [-> ->]. rewrite <- (Sum_blocks N M n (vget h) (at_m K i) (at_m (tb_A tb) j) Hn HM). apply Sum_ext. intros k Hk. rnum. f_equal. f_equal. destruct (Nat.eqb_spec (k / M) n) as [->|]; reflexivity.
Qed.
Lemma int_ends_spec tb h M (x K : mat R) N : length h = N -> (1 <= N)%nat -> (1 <= M)%nat -> length (tb_b tb) = M -> nr K = nr x -> nc x = (N + 1)%nat -> nc K = (N * M)%nat ->
  exists X, int_ends tb h x K = Ok X /\ Shaped X (nr x) N /\
    forall i n, (i < nr x)%nat -> (n < N)%nat -> at_m X i n = at_m x i n + vget h n * Sum M (fun l => vget (tb_b tb) l * at_m K i (n * M + l)%nat).
Proof.
  intros Lh HN HM B1 KR xC KC. unfold int_ends. replace (nc x - 1)%nat with N by lia.
  destruct (cs_mtimes_spec K (mkron (mdiag h) (colvec (tb_b tb)))) as (b & -> & b1 & b2 & Hb). { cbn [mkron mdiag colvec nr nc]. rewrite B1, KC, Lh. reflexivity. }
  cbn [rbind]. cbn [mkron mdiag colvec nr nc] in b1, b2.
  destruct (cs_elem_spec nadd (mcols x 0 N) b (nr x) N) as (X & EX & SX & HX); [split; cbn [mcols nr nc]; lia|split; lia|]. exists X. split; [exact EX|]. split; [exact SX|]. intros i n Hi Hn.
  rewrite HX, Hb; [|lia|cbn [mkron mdiag colvec nc]; lia]. rnum. f_equal. cbn [mkron mdiag colvec nr nc at_m]. rewrite B1, KC, Nat.div_1_r. rewrite <- (Sum_blocks N M n (vget h) (at_m K i) (vget (tb_b tb)) Hn HM). apply Sum_ext. intros k Hk. rnum. f_equal. f_equal. destruct (Nat.eqb_spec (k / M) n) as [->|]; reflexivity.
Qed.

Lemma hstack_blocks r m (l : list (mat R)) : l <> [] -> (forall b, In b l -> Shaped b r m) ->
  exists Y, hstack l = Ok Y /\ Shaped Y r (length l * m) /\ forall k b i j, nth_error l k = Some b -> (j < m)%nat -> at_m Y i (k * m + j) = at_m b i j.
Proof.
  intros Hl Hb. destruct (hstack_spec r l Hl) as (Y & EY & Y1 & Y2 & Y3); [intros b H; apply (Hb b H)|]. exists Y. split; [exact EY|].
  assert (W : map nc l = repeat m (length l)). { clear - Hb. induction l as [|b l IH]; [reflexivity|]. simpl. rewrite (proj2 (Hb b (or_introl eq_refl))). f_equal. apply IH. intros; apply Hb; now right. }
  rewrite W in *. split; [split; [exact Y1|]; rewrite Y2; clear; induction (length l) as [|n IH]; [reflexivity|]; simpl; rewrite IH; lia|].
  intros k b i j Hk Hj. assert (Hlt : (k < length l)%nat) by (apply nth_error_Some; congruence).
  assert (Of : offset (repeat m (length l)) k = (k * m)%nat). { unfold offset. clear - Hlt. revert k Hlt. induction (length l) as [|n IH]; intros k Hk; [lia|]. destruct k; [reflexivity|]. simpl. rewrite IH by lia. lia. }
  rewrite <- Of. apply Y3; [exact Hk|]. destruct (Hb b (nth_error_In _ _ Hk)) as [_ ->]. exact Hj.
Qed.
Lemma nth_error_map_seq {A} (f : nat -> A) n k : (k < n)%nat -> nth_error (map f (seq 0 n)) k = Some (f k).
Proof. intros H. rewrite nth_error_map, (nth_error_nth' _ 0%nat) by (rewrite seq_length; exact H). now rewrite seq_nth. Qed.
Lemma seq_ne {A} (f : nat -> A) n : (1 <= n)%nat -> map f (seq 0 n) <> [].
Proof. destruct n; [lia|discriminate]. Qed.

Lemma ndiff_length (t : list R) : length (ndiff t) = (length t - 1)%nat.
Proof. induction t as [|a t IH]; [reflexivity|]. destruct t as [|b t]; [reflexivity|]. cbn [ndiff length] in *. lia. Qed.
Lemma ndiff_nth (t : list R) : forall n, (n < length t - 1)%nat -> vget (ndiff t) n = step t n.
Proof.
  induction t as [|a t IH]; intros n H; [simpl in H; lia|]. destruct t as [|b t]; [simpl in H; lia|]. destruct n; [reflexivity|]. change (vget (ndiff (a :: b :: t)) (S n)) with (vget (ndiff (b :: t)) n). rewrite IH by (cbn [length] in *; lia). reflexivity.
Qed.

(** ** Structures of matrices *)
Lemma mat_dm_ok (m : mat R) : DmOk (mat_dm m).
Proof.
  split; cbn [mat_dm dm_sp dm_nz sp_dense sp_nnz sp_pat]; [|now rewrite map_length]. split; cbn [sp_pat sp_nr sp_nc sp_dense]; [apply sorted_all_pos|]. apply Forall_forall. intros p Hp. now apply in_all_pos.
Qed.
Lemma mk_plain (l : list (string * dm R)) : NoDup (map fst l) -> (forall x, In x l -> DmOk (snd x)) ->
  exists o, mk_struct (map (fun x => (fst x, VMat (snd x))) l) = Ok o /\
    Wf (cs_struct (so_c o)) /\ casadi_structure (cs_struct (so_c o)) = Ok (so_c o) /\
    s_entries (cs_struct (so_c o)) = map (fun x => plain_entry (fst x) (dm_sp (snd x))) l /\ s_keys (cs_struct (so_c o)) = map fst l /\
    veccat_master o = Ok (flat_map (fun x => dm_nz (snd x)) l) /\ length (flat_map (fun x => dm_nz (snd x)) l) = cs_size (so_c o) /\
    forall k m, In (k, m) l -> veccat_get 0 o [PStr k] = Ok (RMat m).
Proof.
  intros Hnd Hok. set (l' := map (fun x => (fst x, (VMat (snd x), snd x))) l).
  assert (Hnd' : NoDup (map fst l')) by (unfold l'; now rewrite map_map). assert (Hok' : forall x, In x l' -> plain_ok x) by (intros x Hx; apply in_map_iff in Hx as (y & <- & Hy); split; [exact (Hok y Hy)|reflexivity]).
  destruct (plain_mx 0 l' Hnd' Hok') as (o & cat & Ho & Hw & Hc & Hent & Hkeys & _ & Hcat & Hlen & Hg). pose proof (plain_cat 0 l' o cat Hnd' Hok' Ho Hcat) as Ecat.
  assert (Ef : cat = flat_map (fun x => dm_nz (snd x)) l) by (rewrite Ecat; unfold l'; rewrite !flat_map_concat_map, map_map; reflexivity).
  exists o. split; [|split; [exact Hw|]; split; [exact Hc|]; split; [rewrite Hent; unfold l'; now rewrite map_map|]; split; [rewrite Hkeys; unfold l'; now rewrite map_map|]; split; [now rewrite Hcat, Ef|]; split; [now rewrite <- Ef|]].
  - unfold mk_struct. rewrite (rmapM_map _ (fun kv => plain_item (fst kv, (snd kv, match snd kv with VMat m => m | _ => dm_scalar 0 end)))).
    + cbn [rbind]. rewrite map_map. cbn [fst snd]. unfold l' in Ho. rewrite map_map in Ho. exact Ho.
    + intros kv Hkv. apply in_map_iff in Hkv as (y & <- & _). reflexivity.
  - intros k m Hin. destruct (Hg k (VMat m) m) as [G _]; [apply in_map_iff; exists (k, m); auto|exact G].
Qed.
Lemma pat_nz_zero pat (m : mat R) : (forall i j, pat i = false -> at_m m i j = 0) ->
  (forall v, In v (dm_nz (mat_dm_pat pat m)) -> v = 0) <-> forall i j, (i < nr m)%nat -> (j < nc m)%nat -> at_m m i j = 0.
Proof.
  intros Hz. unfold mat_dm_pat, dm_build. cbn [dm_nz]. split.
  - intros H i j Hi Hj. destruct (pat i) eqn:E; [|now apply Hz]. apply H. apply in_map_iff. exists ((i, j), at_m m i j). split; [reflexivity|]. apply in_flat_map. exists (i, j). split; [apply in_all_pos; auto|]. cbn [fst snd]. rewrite E. now left.
  - intros H v Hv. apply in_map_iff in Hv as ([p w] & <- & Hp). apply in_flat_map in Hp as (q & Hq & Hp). apply in_all_pos in Hq. destruct (pat (fst q)); [|destruct Hp]. destruct Hp as [[= <- <-]|[]]. now apply H.
Qed.
Lemma nz_zero (m : mat R) : (forall v, In v (dm_nz (mat_dm m)) -> v = 0) <-> forall i j, (i < nr m)%nat -> (j < nc m)%nat -> at_m m i j = 0.
Proof.
  unfold mat_dm. cbn [dm_nz]. split.
  - intros H i j Hi Hj. apply H. apply in_map_iff. exists (i, j). split; [reflexivity|]. apply in_all_pos. auto.
  - intros H v Hv. apply in_map_iff in Hv as (p & <- & Hp). apply in_all_pos in Hp. now apply H.
Qed.

(** ** The quadrature loop *)
Lemma quad_ends_spec tb M (quad : mat R) : length (tb_b tb) = M -> forall h n q, Shaped q (nr quad) 1 -> (forall a, (a < length h)%nat -> ((n + a + 1) * M <= nc quad)%nat) ->
  exists l, quad_ends tb M quad h n q = Ok l /\ length l = length h /\ (forall b, In b l -> Shaped b (nr quad) 1) /\
    forall k i, (k < length h)%nat -> (i < nr quad)%nat ->
      at_m (nth (k + 1) (q :: l) q) i 0 = at_m (nth k (q :: l) q) i 0 + vget h k * Sum M (fun a => vget (tb_b tb) a * at_m quad i ((n + k) * M + a)%nat).
Proof.
  intros HB. induction h as [|hn h IH]; intros n q Hq Hc; [exists []; split; [reflexivity|]; split; [reflexivity|]; split; [intros b []|intros k i Hk; simpl in Hk; lia]|].
  cbn [quad_ends]. destruct (cs_mtimes_spec (mcols quad (n * M) ((n + 1) * M)) (colvec (tb_b tb))) as (d & -> & d1 & d2 & Hd); [cbn [mcols colvec nr nc]; lia|]. cbn [rbind]. cbn [mcols colvec nr nc] in d1, d2.
  destruct (cs_elem_spec nadd q (mscale hn d) (nr quad) 1 Hq) as (q' & -> & Sq & Hq'); [split; cbn [mscale nr nc]; lia|]. cbn [rbind].
  destruct (IH (n + 1)%nat q' Sq) as (l & -> & Ll & Hl & HV). { intros a Ha. specialize (Hc (S a) ltac:(simpl; lia)). replace (n + 1 + a + 1)%nat with (n + S a + 1)%nat by lia. exact Hc. }
  cbn [rbind]. exists (q' :: l). split; [reflexivity|]. split; [simpl; lia|]. split; [intros b [<-|Hb]; auto|]. intros k i Hk Hi. destruct k as [|k].
  - rewrite Nat.add_0_l. cbn [nth]. rewrite Hq'. rnum. cbn [mscale at_m]. rewrite Hd; [|exact Hi|cbn; lia]. unfold vget at 1. cbn [nth]. rewrite Nat.add_0_r. cbn [mcols colvec nc at_m]. f_equal. rnum. f_equal. replace ((n + 1) * M - n * M)%nat with M by lia. apply Sum_ext. intros. rnum. ring.
  - specialize (HV k i ltac:(simpl in Hk; lia) Hi). change (nth (S k + 1) (q :: q' :: l) q) with (nth (k + 1) (q' :: l) q). change (nth (S k) (q :: q' :: l) q) with (nth k (q' :: l) q). change (vget (hn :: h) (S k)) with (vget h k).
    replace (n + S k)%nat with (n + 1 + k)%nat by lia. simpl in Hk. rewrite !(nth_indep _ q q') by (simpl; lia). exact HV.
Qed.

(** ** The scheme *)
Section Built.
Context (cspts : nat -> string -> res (list R)) (f : daefun R) (t : list R) (order : nat) (method : string) (tau : list R) (g : option (R -> mat R)) (rep : bool) (x K Z u p : mat R).
Context (HP : Points cspts order method tau) (HL : (2 <= length t)%nat) (HD : DaeOk f) (HT : TdpOk f g) (HV : VarsOk f (ivals t) order rep x K Z u p).
Notation N := (ivals t).
Notation sch := (scheme_ cspts f t order method g rep x K Z u p).
Definition tbl : tableau R := match butcher_points tau with Ok tb => tb | Err _ => Tableau (Mat 0 0 (fun _ _ => 0)) [] [] end.
Definition cA : nat -> nat -> R := at_m (tb_A tbl).
Definition cb : nat -> R := node (tb_b tbl).
Notation arg := (stage t tau order cA rep g x K Z u p).

Lemma tbl_ok : butcher_points tau = Ok tbl /\ nr (tb_A tbl) = order /\ nc (tb_A tbl) = order /\ length (tb_b tbl) = order /\ tb_c tbl = tau /\ RungeKutta tau cA cb.
Proof.
  destruct HP as (_ & Hd & L & _). destruct (butcher_exact tau Hd) as (tb & E & A1 & A2 & B & C & H). unfold cA, cb, tbl. rewrite E, <- L. split; [reflexivity|]. split; [exact A1|]. split; [exact A2|]. split; [exact B|]. split; [exact C|]. exact H.
Qed.

Lemma tc_spec : let tc := concat (map (fun n => map (fun c => (vget t n + vget (ndiff t) n * c)%num) tau) (seq 0 N)) in
  length tc = (N * order)%nat /\ forall n j, (n < N)%nat -> (j < order)%nat -> node tc (n * order + j) = stage_t t tau n j.
Proof.
  destruct HP as (_ & _ & L & _). destruct (concat_blocks (fun n => map (fun c => (vget t n + vget (ndiff t) n * c)%num) tau) order) with (n := N) as [C1 C2]; [intros; now rewrite map_length|]. split; [exact C1|]. intros n j Hn Hj. rewrite C2 by assumption. unfold node at 1. rewrite (nth_indep _ 0 ((fun c => (vget t n + vget (ndiff t) n * c)%num) 0)) by (rewrite map_length; lia).
  rewrite (map_nth (fun c => (vget t n + vget (ndiff t) n * c)%num)). rewrite ndiff_nth by exact Hn. reflexivity.
Qed.

Lemma scheme_full : exists s e quad,
  sch = Ok s /\ sc_N s = N /\ sc_M s = order /\ sc_x s = x /\ sc_K s = K /\ sc_Z s = Z /\ sc_u s = u /\ sc_p s = p /\ sc_t s = t /\ sc_butcher s = tbl /\
  Shaped (sc_X s) (f_nx f) (N * order) /\ (forall i n j, (i < f_nx f)%nat -> (n < N)%nat -> (j < order)%nat -> at_m (sc_X s) i (n * order + j) = stage_x t order cA x K n j i) /\
  length (sc_tc s) = (N * order)%nat /\ (forall n j, (n < N)%nat -> (j < order)%nat -> node (sc_tc s) (n * order + j) = stage_t t tau n j) /\
  Shaped (sc_U s) (f_nu f) (N * order) /\ (forall i n j, (n < N)%nat -> (j < order)%nat -> at_m (sc_U s) i (n * order + j) = at_m u i n) /\
  sc_quad s = quad /\ Shaped quad (f_nq f) (N * order) /\ (forall i n j, (n < N)%nat -> (j < order)%nat -> at_m quad i (n * order + j) = f_quad f (arg n j) i) /\
  Shaped (sc_q s) (f_nq f) (N + 1) /\ (forall i, (i < f_nq f)%nat -> at_m (sc_q s) i 0 = 0) /\
  (forall i n, (i < f_nq f)%nat -> (n < N)%nat -> at_m (sc_q s) i (n + 1) = at_m (sc_q s) i n + step t n * Sum order (fun l => cb l * f_quad f (arg n l) i)) /\
  Shaped (sc_Q s) (f_nq f) (N * order) /\
  (forall i n j, (i < f_nq f)%nat -> (n < N)%nat -> (j < order)%nat -> at_m (sc_Q s) i (n * order + j) = at_m (sc_q s) i n + step t n * Sum order (fun l => cA j l * f_quad f (arg n l) i)) /\
  veccat_master (sc_eq s) = Ok e /\
  exists D C, Shaped D (f_ndae f) (N * order) /\ (forall i n j, (n < N)%nat -> (j < order)%nat -> at_m D i (n * order + j) = f_dae f (arg n j) i) /\
    Shaped C (f_nx f) N /\ (forall i n, (i < f_nx f)%nat -> (n < N)%nat -> at_m C i n = at_m x i n + step t n * Sum order (fun l => cb l * at_m K i (n * order + l)%nat) - at_m x i (n + 1)) /\
    (forall i j, f_pat f i = false -> at_m D i j = 0) /\
    e = dm_nz (mat_dm_pat (f_pat f) D) ++ dm_nz (mat_dm C) ++ dm_nz (mat_dm (cs_diff p)) /\
    s_keys (cs_struct (so_c (sc_eq s))) = ["collocation"; "continuity"; "param"]%string /\
    veccat_get 0 (sc_eq s) [PStr "collocation"] = Ok (RMat (mat_dm_pat (f_pat f) D)) /\ veccat_get 0 (sc_eq s) [PStr "continuity"] = Ok (RMat (mat_dm C)) /\ veccat_get 0 (sc_eq s) [PStr "param"] = Ok (RMat (mat_dm (cs_diff p))) /\
    Wf (cs_struct (so_c (sc_eq s))) /\ casadi_structure (cs_struct (so_c (sc_eq s))) = Ok (so_c (sc_eq s)) /\ length e = cs_size (so_c (sc_eq s)).
Proof.
  pose proof HV as ([xR xC] & [KR KC] & [ZR ZC] & [uR uC] & [pR pC]). pose proof HP as (Ecs & Hd & L & Ho). destruct HD as (RD & RQ & RZ). assert (HN : (1 <= N)%nat) by (unfold ivals; lia). destruct tbl_ok as (Eb & A1 & A2 & B1 & C1 & _).
  assert (Lh : length (ndiff t) = N) by apply ndiff_length.
  unfold scheme_. fold N. destruct (Nat.eqb_spec N 0) as [|_]; [lia|].
  destruct (hstack_blocks (f_nu f) order (map (fun n => repmat_col u n order) (seq 0 N))) as (U & -> & SU & HU). { now apply seq_ne. } { intros b Hb. apply in_map_iff in Hb as (n & <- & _). split; [exact uR|reflexivity]. }
  rewrite map_length, seq_length in SU. cbn [rbind]. unfold butcher_method. rewrite Ecs. cbn [rbind]. rewrite Eb. cbn [rbind].
  destruct (int_points_spec tbl (ndiff t) order x K N Lh HN Ho A1 A2 ltac:(lia) xC KC) as (X & -> & SX & HX). cbn [rbind]. rewrite xR in SX, HX.
  destruct (int_ends_spec tbl (ndiff t) order x K N Lh HN Ho B1 ltac:(lia) xC KC) as (xf & -> & Sxf & Hxf). cbn [rbind]. rewrite xR in Sxf, Hxf.
  rewrite C1. destruct tc_spec as [Ltc Htc]. set (tc := concat (map (fun n => map (fun c => (vget t n + vget (ndiff t) n * c)%num) tau) (seq 0 N))) in *.
  assert (ET : exists tdp, match g with Some g => hstack (map g tc) | None => let* _ := rassert (f_ntdp f =? 0)%nat in Ok (mzeros 0 (length tc)) end = Ok tdp /\ Shaped tdp (f_ntdp f) (N * order) /\ forall i k, (k < N * order)%nat -> (i < f_ntdp f)%nat -> at_m tdp i k = tdp_at g (node tc k) i).
  { unfold TdpOk in HT. destruct g as [g'|].
    - destruct (hstack_blocks (f_ntdp f) 1 (map g' tc)) as (Y & EY & SY & HY). { destruct tc as [|c0 tc']; [simpl in Ltc; nia|discriminate]. } { intros b Hb. apply in_map_iff in Hb as (s & <- & _). apply HT. }
      exists Y. split; [exact EY|]. rewrite map_length, Ltc, Nat.mul_1_r in SY. split; [exact SY|]. intros i k Hk Hi. cbn [tdp_at]. rewrite <- (HY k (g' (node tc k)) i 0%nat); [f_equal; lia| |lia]. rewrite nth_error_map, (nth_error_nth' _ 0) by lia. reflexivity.
    - rewrite HT. cbn. eexists. split; [reflexivity|]. rewrite Ltc. split; [split; reflexivity|]. intros; lia. }
  destruct ET as (tdp & -> & [T1 T2] & Htdp). cbn [rbind]. destruct SX as [X1 X2]. destruct SU as [U1 U2]. unfold dae_map, shape_is. rewrite KR, KC, X1, X2, ZR, ZC, U1, U2, pR, pC, Ltc, T1, T2, !Nat.eqb_refl. cbn [andb rbind fst snd].
  set (a := fun k => DArgs (mcol K k) (mcol X k) (mcol Z k) (mcol U k) (mcol p (if rep then k else 0)) (vget tc k) (mcol tdp k)).
  assert (SA : forall n j, (n < N)%nat -> (j < order)%nat -> SameArgs f (a (n * order + j)%nat) (arg n j)).
  { intros n j Hn Hj. unfold a, stage. repeat split; cbn [a_xdot a_x a_z a_u a_p a_t a_tdp]; unfold mcol; intros.
    - rewrite HX by assumption. unfold stage_x. now rewrite ndiff_nth by exact Hn.
    - exact (HU n (repmat_col u n order) _ _ (nth_error_map_seq (fun n => repmat_col u n order) _ _ Hn) Hj).
    - change (vget tc (n * order + j)) with (node tc (n * order + j)). now apply Htc.
    - rewrite Htdp by (try apply block_in; assumption). now rewrite Htc. }
  set (D := Mat (f_ndae f) (N * order) (fun i k => f_dae f (a k) i)). set (qd := Mat (f_nq f) (N * order) (fun i k => f_quad f (a k) i)).
  destruct (cs_elem_spec nsub xf (mcols x 1 (nc x)) (f_nx f) N Sxf) as (C & -> & SC & HC); [split; cbn [mcols nr nc]; lia|]. cbn [rbind].
  destruct (mk_plain [("collocation"%string, mat_dm_pat (f_pat f) D); ("continuity"%string, mat_dm C); ("param"%string, mat_dm (cs_diff p))]) as (o & Ho' & Hw & Hc & _ & Hk & Hm & Hlen & Hg).
  { simpl. repeat constructor; simpl; intuition discriminate. } { intros y Hy. simpl in Hy. destruct Hy as [<-|[<-|[<-|[]]]]; cbn [snd]; [apply dm_build_ok|apply mat_dm_ok|apply mat_dm_ok]. }
  cbn [map fst snd] in Ho'. change (mk_struct _) with (mk_struct [("collocation"%string, VMat (mat_dm_pat (f_pat f) D)); ("continuity"%string, VMat (mat_dm C)); ("param"%string, VMat (mat_dm (cs_diff p)))]) at 1. rewrite Ho'. cbn [rbind]. cbv zeta. change (Mat (f_nq f) (N * order) _) with qd.
  destruct (quad_ends_spec tbl order qd B1 (ndiff t) 0 (mzeros (f_nq f) 1)) as (qs & -> & Lq & Sqs & Hqs). { split; reflexivity. } { intros b Hb. cbn [qd nc]. rewrite Lh in Hb. nia. }
  cbn [rbind]. cbn [qd nr] in Sqs, Hqs. rewrite Lh in Lq, Hqs.
  destruct (hstack_blocks (f_nq f) 1 (mzeros (f_nq f) 1 :: qs)) as (q & -> & Sq & Hq). { discriminate. } { intros b [<-|Hb]; [split; reflexivity|now apply Sqs]. }
  cbn [rbind]. cbn [length] in Sq. rewrite Lq, Nat.mul_1_r in Sq. destruct Sq as [q1 q2].
  destruct (int_points_spec tbl (ndiff t) order q qd N Lh HN Ho A1 A2 ltac:(cbn [qd nr]; lia) ltac:(lia) eq_refl) as (Q & -> & SQ & HQ). cbn [rbind].
  assert (Qc : forall n i, (n <= N)%nat -> at_m q i n = at_m (nth n (mzeros (f_nq f) 1 :: qs) (mzeros (f_nq f) 1)) i 0).
  { intros n i Hn. rewrite <- (Hq n (nth n (mzeros (f_nq f) 1 :: qs) (mzeros (f_nq f) 1)) i 0%nat); [f_equal; lia| |lia]. apply nth_error_nth'. simpl. lia. }
  eexists _, _, qd. split; [reflexivity|]. cbn [sc_N sc_M sc_x sc_K sc_Z sc_u sc_p sc_t sc_butcher sc_X sc_tc sc_U sc_quad sc_q sc_Q sc_eq].
  do 9 (split; [reflexivity|]). split; [split; assumption|]. split; [intros i n j Hi Hn Hj; rewrite HX by assumption; unfold stage_x; now rewrite ndiff_nth by exact Hn|].
  split; [exact Ltc|]. split; [exact Htc|]. split; [split; assumption|]. split; [intros i n j Hn Hj; exact (HU n (repmat_col u n order) _ _ (nth_error_map_seq (fun n => repmat_col u n order) _ _ Hn) Hj)|].
  split; [reflexivity|]. split; [split; reflexivity|]. split; [intros i n j Hn Hj; cbn [qd at_m]; now apply RQ, SA|]. split; [split; lia|].
  split; [intros i Hi; now rewrite Qc by lia|]. assert (QE : forall l n i, (n < N)%nat -> (l < order)%nat -> at_m qd i (n * order + l) = f_quad f (arg n l) i) by (intros l n i Hn Hl; cbn [qd at_m]; now apply RQ, SA).
  split. { intros i n Hi Hn. rewrite !Qc by lia. rewrite Hqs by assumption. rewrite ndiff_nth by exact Hn. f_equal. f_equal. apply Sum_ext. intros l Hl. rewrite Nat.add_0_l, QE by assumption. reflexivity. }
  split; [destruct SQ as [S1 S2]; split; lia|]. split. { intros i n j Hi Hn Hj. rewrite HQ by (try assumption; lia). rewrite ndiff_nth by exact Hn. f_equal. f_equal. apply Sum_ext. intros l Hl. now rewrite QE. }
  split; [exact Hm|]. exists D, C. split; [split; reflexivity|]. split; [intros i n j Hn Hj; cbn [D at_m]; now apply RD, SA|]. split; [exact SC|].
  split. { intros i n Hi Hn. rewrite HC, Hxf by assumption. rewrite ndiff_nth by exact Hn. rnum. cbn [mcols at_m]. rewrite (Nat.add_comm 1). reflexivity. }
  split; [intros i j E; now apply RZ|]. split; [cbn [flat_map snd]; now rewrite app_nil_r|]. split; [exact Hk|]. split; [apply Hg; now left|]. split; [apply Hg; right; now left|]. split; [apply Hg; right; right; now left|]. auto.
Qed.
End Built.
