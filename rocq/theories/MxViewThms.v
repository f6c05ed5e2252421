(** Views of MX matrices (C84). *)
From Verif Require Import PyBase IndexModel DMModel StructModel StructSpec PowerModel PowerSpec
  IndexProofs StructProofs LayoutProofs LayoutThms LayoutExamples DMProofs PowerProofs PowerThms SliceProofs PowerThms2 PowerThms3 PowerThms4 PowerThms5
  EntryModel EntrySpec EntryProofs StructsModel StructsSpec StructsThms1 StructsThms2 StructsThms3 StructsThms4 StructsThms5 StructsThms6 StructsThms7 StructsThms8 StructsThms9 SqRepThms MxViewModel.
Open Scope nat_scope.

Section P.
Context {T : Type} (zero : T).
Notation pel := (pel T).
Notation pay := (pay T).
Notation view := (view T).

(** ** Splitting columns *)
Lemma row_block_col (v : list T) lo hi : lo <= hi -> hi <= length v ->
  row_block (dm_col v) lo hi = dm_col (firstn (hi - lo) (skipn lo v)).
Proof.
  intros H1 H2. unfold row_block, dm_col, dm_nc, dm_nr. cbn. rewrite app_nil_r. f_equal.
  rewrite firstn_length, skipn_length. f_equal. lia.
Qed.
Lemma last_snoc {A} (l : list A) x d : last (l ++ [x]) d = x.
Proof. induction l as [|a l IH]; [reflexivity|]. cbn [app last]. destruct (l ++ [x]) eqn:E; [destruct l; discriminate|exact IH]. Qed.

Lemma vertsplit_col (v : list T) : forall sizes k cs, k <= length v -> vertsplit (skipn k v) sizes = Ok cs ->
  let offs := starts k sizes ++ [length v] in
  monotone offs = true /\ hd 0 offs = k /\
  map (fun p => row_block (dm_col v) (fst p) (snd p)) (List.combine offs (tl offs)) = map dm_col cs.
Proof.
  induction sizes as [|n sizes IH]; intros k cs Hk H; cbn [starts app].
  - cbn in H. destruct (skipn k v) eqn:E; [|discriminate]. injection H as <-. cbn.
    assert (length (skipn k v) = 0) by now rewrite E. rewrite skipn_length in H. split; [reflexivity|]. split; [lia|reflexivity].
  - destruct sizes as [|n' sizes].
    + cbn in H. injection H as <-. cbn. rewrite (proj2 (Nat.leb_le _ _) Hk). split; [reflexivity|]. split; [reflexivity|].
      rewrite row_block_col by lia. rewrite firstn_all2; [reflexivity|]. rewrite skipn_length. lia.
    + cbn [vertsplit] in H. destruct (Nat.leb_spec n (length (skipn k v))) as [Hn|]; [|discriminate].
      rewrite skipn_length in Hn. rewrite skipn_add in H. change (match sizes with [] => Ok [skipn (k + n) v] | _ :: _ => _ end) with (vertsplit (skipn (k + n) v) (n' :: sizes)) in H.
      destruct (vertsplit (skipn (k + n) v) (n' :: sizes)) as [cs'|] eqn:E; [|discriminate]. cbn [rbind] in H. injection H as <-.
      destruct (IH (k + n) cs' ltac:(lia) E) as (A & B & C). cbn zeta in *.
      set (offs := starts (k + n) (n' :: sizes) ++ [length v]) in *.
      destruct offs as [|o rest] eqn:Eo; [destruct sizes; discriminate|]. cbn in B. subst o.
      split; [|split; [reflexivity|]].
      * cbn [monotone]. cbn [monotone] in A. rewrite A. rewrite (proj2 (Nat.leb_le _ _)) by lia. reflexivity.
      * cbn [tl]. cbn [tl] in C. cbn [List.combine map fst snd]. cbn [List.combine map] in C. rewrite C. f_equal.
        rewrite row_block_col by lia. do 2 f_equal. lia.
Qed.
Lemma vertsplit_m_col (v : list T) sizes cs : vertsplit v sizes = Ok cs ->
  vertsplit_m (dm_col v) (starts 0 sizes ++ [dm_nr (dm_col v)]) = Ok (map dm_col cs).
Proof.
  intros H. change (dm_nr (dm_col v)) with (length v). destruct (vertsplit_col v sizes 0 cs (Nat.le_0_l _) H) as (A & B & C). cbn zeta in *.
  unfold vertsplit_m. change (dm_nr (dm_col v)) with (length v). rewrite last_snoc, Nat.eqb_refl, A.
  destruct (starts 0 sizes ++ [length v]) as [|o rest] eqn:Eo; [destruct (starts 0 sizes); discriminate Eo|]. cbn in B. subst o.
  cbn [Nat.eqb andb]. cbn [tl] in C. rewrite C. reflexivity.
Qed.
Lemma mx_with_col sp (v : list T) m : with_sparsity sp v = Ok m -> mx_with_sparsity zero sp (dm_col v) = Ok m.
Proof.
  unfold with_sparsity. destruct (Nat.eqb_spec (length v) (sp_nnz sp)) as [H|]; [|discriminate]. intros [= <-].
  unfold mx_with_sparsity. destruct (spy_eqb (dm_sp (dm_col v)) sp) eqn:E; [apply spy_eqb_eq in E; rewrite <- E; reflexivity|].
  destruct (is_reshape sp _); [reflexivity|]. destruct (dm_is_scalar (dm_col v)) eqn:E2.
  - unfold dm_is_scalar, dm_nr, dm_nc in E2. cbn in E2. rewrite andb_true_r in E2. apply Nat.eqb_eq in E2.
    destruct v as [|x [|y v]]; try discriminate. cbn. rewrite <- H. reflexivity.
  - change (dm_nc (dm_col v)) with 1. change (dm_nr (dm_col v)) with (length v). rewrite H, !Nat.eqb_refl. reflexivity.
Qed.

Lemma rzip_imp {A A' B B' C} (R : A -> A' -> Prop) (g : B -> B') (f : A -> B -> res C) (f' : A' -> B' -> res C) :
  (forall a a' b c, R a a' -> f a b = Ok c -> f' a' (g b) = Ok c) -> forall l la', Forall2 R l la' -> forall (l' : list B) cs,
  rzip f l l' = Ok cs -> rzip f' la' (map g l') = Ok cs.
Proof.
  intros Hf l la' HF. induction HF as [|a a' l la' Ha HF IH]; intros l' cs H; [exact H|]. destruct l' as [|b l']; [exact H|]. cbn [rzip map] in *.
  destruct (f a b) as [c|] eqn:E; [|discriminate]. cbn [rbind] in H. rewrite (Hf a a' b c Ha E). cbn [rbind].
  destruct (rzip f l l') as [cs'|] eqn:E2; [|discriminate]. rewrite (IH l' cs'); auto.
Qed.

(** What is known of an entry in both traversals. *)
Definition ItemR (x : spy * (list T -> cidx -> res (bmap (T := T)))) (y : spy * (dm T -> cidx -> res (bmap (T := T)))) : Prop :=
  fst x = fst y /\ forall v pre pm, snd x v pre = Ok pm -> snd y (dm_col v) pre = Ok pm.

Lemma rmapM_R {A B B'} (R : B -> B' -> Prop) (f : A -> res B) (f' : A -> res B') : forall l xs,
  (forall a x, In a l -> f a = Ok x -> exists y, f' a = Ok y /\ R x y) -> rmapM f l = Ok xs -> exists ys, rmapM f' l = Ok ys /\ Forall2 R xs ys.
Proof.
  induction l as [|a l IH]; intros xs Hf H; cbn [rmapM] in *.
  - injection H as <-. exists []. split; [reflexivity|constructor].
  - destruct (f a) as [x|] eqn:E; [|discriminate]. cbn [rbind] in H. destruct (rmapM f l) as [xs'|] eqn:E2; [|discriminate]. cbn [rbind] in H. injection H as <-.
    destruct (Hf a x (or_introl eq_refl) E) as (y & Ey & Hy). destruct (IH xs') as (ys & Eys & HF); [intros a' x' Hin; apply Hf; now right|reflexivity|].
    rewrite Ey. cbn [rbind]. rewrite Eys. cbn [rbind]. exists (y :: ys). split; [reflexivity|now constructor].
Qed.

Lemma buildS_m_eq es order : buildS_m zero (mkStruct es order) =
  build_items_m zero (pydict (map (fun e => (e_name e, buildE_m zero e)) es)) (tops (mkStruct es order)).
Proof. reflexivity. Qed.

Theorem build_col s : Wf s -> forall v pre pm, buildS s v pre = Ok pm -> buildS_m zero s (dm_col v) pre = Ok pm.
Proof.
  induction s as [es order IH _] using structure_ind2. intros Hw v pre pm H.
  pose proof (Wf_NoDup _ Hw) as Hnd. simpl in Hnd.
  assert (HE : forall e, In e es -> ItemR (buildE e) (buildE_m zero e)).
  { intros e He. destruct e as [n d [s'|] sp sy og sh]; split; cbn; auto.
    intros v0 pre0 pm0. apply (IH (mkEntry n d (Some s') sp sy og sh) s' He eq_refl). eapply (Wf_sub (mkStruct es order)); eauto. }
  rewrite buildS_eq in H. rewrite buildS_m_eq. unfold build_items in H. unfold build_items_m.
  match type of H with context [rmapM ?f ?l] => destruct (rmapM f l) as [xs|] eqn:Ex; [|discriminate]; 
    destruct (rmapM_R (fun x y => fst x = fst y /\ ItemR (snd x) (snd y)) f
     (fun it : cidx => match it with
        | KS n :: _ => match dict_get n (pydict (map (fun e => (e_name e, buildE_m zero e)) es)) with Some x => Ok (it, x) | None => Err EException end
        | _ => Err EException end) l xs) as (ys & Ey & HF) end.
  - intros it x _ Hx. destruct it as [|[n|z] r]; try discriminate. rewrite (dict_map (buildE (T := T)) es n Hnd) in Hx. rewrite (dict_map (buildE_m zero) es n Hnd).
    destruct (dict_get n (pydict (map (fun e => (e_name e, e)) es))) as [e|] eqn:Ed; [|discriminate]. injection Hx as <-. eexists. split; [reflexivity|]. split; [reflexivity|]. apply HE.
    apply dict_get_In, in_pydict, in_map_iff in Ed as (e' & [= _ <-] & He). exact He.
  - exact Ex.
  - cbn [rbind] in H. rewrite Ey. cbn [rbind].
    assert (Es : map (fun x => sp_nnz (fst (snd x))) xs = map (fun x => sp_nnz (fst (snd x))) ys).
    { clear - HF. induction HF as [|x y xs ys (_ & E & _) HF IHF]; [reflexivity|]. cbn [map]. now rewrite E, IHF. }
    rewrite Es in H. destruct (vertsplit v (map (fun x => sp_nnz (fst (snd x))) ys)) as [chunks|] eqn:Ev; [|discriminate]. cbn [rbind] in H.
    rewrite (vertsplit_m_col v _ chunks Ev). cbn [rbind].
    match type of H with context [rzip ?f xs chunks] => destruct (rzip f xs chunks) as [pms|] eqn:Ez; [|discriminate] end.
    injection H as <-. erewrite (rzip_imp _ dm_col); [reflexivity| |exact HF|exact Ez].
    intros a a' b c0 (E1 & E2 & Hs) Hx. cbn beta in *. unfold bmap in *. destruct (snd (snd a) b (pre ++ fst a)) as [sub|] eqn:Esub; [|discriminate]. cbn [rbind] in Hx.
    destruct (with_sparsity (fst (snd a)) b) as [m|] eqn:Em; [|discriminate]. cbn [rbind] in Hx. injection Hx as <-.
    rewrite <- E1, (Hs _ _ _ Esub). cbn [rbind]. rewrite <- E2, (mx_with_col _ _ _ Em). reflexivity.
Qed.

(** ** Structures with the single entry "t" *)
Lemma row_block_full (a : dm T) : DmOk a -> sp_is_dense (dm_sp a) = true -> row_block a 0 (dm_nr a) = a.
Proof.
  intros [Hsp Hl] Hd. pose proof (sp_dense_shape _ Hsp Hd) as E. unfold row_block. rewrite Nat.sub_0_r.
  destruct a as [sp nz]. unfold dm_nr, dm_nc in *. cbn [dm_sp dm_nz] in *. f_equal; [now rewrite <- E|].
  assert (Hlen : length nz = sp_nr sp * sp_nc sp) by (rewrite Hl, E; unfold sp_dense; cbn; apply all_pos_length).
  clear - Hlen. generalize (sp_nr sp) (sp_nc sp) Hlen. clear. intros r c. revert nz.
  assert (G : forall n k (nz : list T), length nz = r * (k + n) -> flat_map (fun j => firstn r (skipn (j * r + 0) nz)) (seq k n) = skipn (k * r) nz).
  { induction n as [|n IH]; intros k nz H; cbn [seq flat_map]; [rewrite skipn_all2; [reflexivity|lia]|].
    rewrite IH by lia. rewrite Nat.add_0_r. replace (S k * r) with (k * r + r) by lia. rewrite <- skipn_add. apply firstn_skipn. }
  intros nz H. rewrite (G c 0 nz) by exact H. reflexivity.
Qed.

Lemma starts_repeat w : forall N k, starts k (repeat w N) = map (fun j => k + j * w) (seq 0 N).
Proof.
  induction N as [|N IH]; intros k; [reflexivity|]. cbn [repeat starts seq map]. rewrite IH, <- seq_shift, map_map. f_equal; [lia|].
  apply map_ext. intros j. lia.
Qed.

(** The offsets for [N] blocks of [w] elements of a matrix with [1 <= n <= w] rows. *)
Lemma offsets_ok w n N : 1 <= n <= w -> forall o rest, starts 0 (repeat w N) ++ [n] = o :: rest ->
  (o =? 0) && (last (o :: rest) 0 =? n) && monotone (o :: rest) = true -> N = 1 \/ (N = 2 /\ w = n).
Proof.
  intros Hn o rest E H. destruct N as [|[|[|N]]]; cbn in E.
  - injection E as <- <-. cbn in H. destruct (Nat.eqb_spec n 0); [lia|discriminate].
  - now left.
  - injection E as <- <-. cbn in H. rewrite !andb_true_iff in H. destruct H as [_ [H _]]. apply Nat.leb_le in H. right. lia.
  - exfalso. assert (M : forall l x y, monotone (x :: l ++ [y]) = true -> x <= y).
    { induction l as [|z l IH]; intros x y Hm; cbn in Hm; [apply andb_true_iff in Hm as [Hm _]; now apply Nat.leb_le in Hm|].
      apply andb_true_iff in Hm as [H1 H2]. apply Nat.leb_le in H1. specialize (IH z y H2). lia. }
    injection E as <- <-. rewrite !andb_true_iff in H. destruct H as [_ H].
    cbn [monotone] in H. apply andb_true_iff in H as [_ H]. apply andb_true_iff in H as [H1 H]. 
    specialize (M _ _ _ H). apply Nat.leb_le in H1. lia.
Qed.

Definition dict_t (et : entry) := pydict (map (fun e => (e_name e, buildE_m zero e)) [et]).
Lemma dict_t_get et : e_name et = "t"%string -> dict_get "t" (dict_t et) = Some (buildE_m zero et).
Proof. intros E. unfold dict_t. cbn. rewrite E. reflexivity. Qed.

Lemma tops_t et N : e_name et = "t"%string -> e_dims et = [Z.of_nat N] -> tops (mkStruct [et] [OName "t"]) = map at_col (seq 0 N).
Proof.
  intros En Ed. rewrite tops_eq. unfold order_indices. cbn [map flat_map pydict fold_left dict_set fst snd dict_get]. rewrite En. cbn [String.eqb Ascii.eqb Bool.eqb].
  rewrite app_nil_r. cbn [fst snd]. rewrite Ed, entry_indices_eq. rewrite listindices_cons. cbn [listindices map]. unfold pyrange. rewrite Nat2Z.id.
  generalize (seq 0 N). induction l as [|j l IH]; [reflexivity|]. cbn [map flat_map app]. rewrite IH. reflexivity.
Qed.
Lemma t_items et l : e_name et = "t"%string ->
  rmapM (fun it : cidx => match it with
        | KS n :: _ => match dict_get n (dict_t et) with Some x => Ok (it, x) | None => Err EException end
        | _ => Err EException end) (map at_col l) = Ok (map (fun j => (at_col j, buildE_m zero et)) l).
Proof.
  intros En. induction l as [|j l IH]; [reflexivity|]. cbn [map rmapM]. unfold at_col at 1. cbv beta iota. rewrite (dict_t_get et En). cbn [rbind].
  rewrite IH. reflexivity.
Qed.
Lemma t_sizes et l : map (fun x : cidx * _ => sp_nnz (fst (snd x))) (map (fun j => (at_col j, buildE_m zero et)) l) = repeat (sp_nnz (fst (buildE_m zero et))) (length l).
Proof. induction l as [|j l IH]; [reflexivity|]. cbn [map length repeat fst snd]. now rewrite IH. Qed.

Lemma t_build et N (a : dm T) pre : e_name et = "t"%string -> e_dims et = [Z.of_nat N] ->
  buildS_m zero (mkStruct [et] [OName "t"]) a pre =
  let* chunks := vertsplit_m a (starts 0 (repeat (sp_nnz (fst (buildE_m zero et))) N) ++ [dm_nr a]) in
  rmap (@concat _) (rzip (fun x k =>
    let* sub := snd (snd x) k (pre ++ fst x) in
    let* m := mx_with_sparsity zero (fst (snd x)) k in
    Ok (sub ++ [(pre ++ fst x, m)])) (map (fun j => (at_col j, buildE_m zero et)) (seq 0 N)) chunks).
Proof.
  intros En Ed. rewrite buildS_m_eq. unfold build_items_m.
  rewrite (tops_t et N En Ed). fold (dict_t et). rewrite (t_items et _ En). cbn [rbind]. rewrite t_sizes, seq_length. reflexivity.
Qed.

Lemma rzip_first_err {A B C} (f : A -> B -> res (list C)) a b l l' : (exists e, f a b = Err e) -> exists e, rmap (@concat _) (rzip f (a :: l) (b :: l')) = Err e.
Proof. intros (e & E). exists e. cbn [rzip]. rewrite E. reflexivity. Qed.
Lemma bind_err {A B C} (x : res A) (y : res B) (k : A -> B -> res C) e : y = Err e -> exists e', (let* a := x in let* b := y in k a b) = Err e'.
Proof. intros ->. destruct x; cbn; eauto. Qed.

Lemma mx_with_err sp (a : dm T) : DmOk a -> sp_is_dense (dm_sp a) = true -> 2 <= dm_nc a -> sp_nnz sp = dm_nr a -> 1 <= dm_nr a ->
  mx_with_sparsity zero sp a = Err EException.
Proof.
  intros Ha Hd Hc Ew Hn. pose proof (sp_dense_shape _ (proj1 Ha) Hd) as Ea.
  assert (Hz : sp_nnz (dm_sp a) = dm_nr a * dm_nc a) by (rewrite Ea; apply nnz_dense).
  unfold mx_with_sparsity. destruct (spy_eqb (dm_sp a) sp) eqn:E1.
  { apply spy_eqb_eq in E1. exfalso. rewrite E1 in Hz. nia. }
  destruct (is_reshape sp (dm_sp a)) eqn:E2.
  { exfalso. unfold is_reshape in E2. apply andb_true_iff in E2 as [_ E2]. destruct (list_eq_dec _ _ _) as [E|]; [|discriminate].
    apply (f_equal (@length nat)) in E. unfold linear in E. rewrite !map_length in E. fold (sp_nnz (dm_sp a)) in E. fold (sp_nnz sp) in E. nia. }
  unfold dm_is_scalar. replace (dm_nc a =? 1) with false by (symmetry; apply Nat.eqb_neq; lia). rewrite andb_false_r. reflexivity.
Qed.

Lemma t_build_err et N (a : dm T) pre : e_name et = "t"%string -> e_dims et = [Z.of_nat N] -> DmOk a -> sp_is_dense (dm_sp a) = true ->
  1 <= dm_nr a <= sp_nnz (fst (buildE_m zero et)) -> N <> 1 -> (N = 2 -> 2 <= dm_nc a) ->
  exists e, buildS_m zero (mkStruct [et] [OName "t"]) a pre = Err e.
Proof.
  intros En Ed Ha Hd Hn HN Hc. rewrite (t_build et N a pre En Ed). set (w := sp_nnz (fst (buildE_m zero et))) in *.
  unfold vertsplit_m. destruct (starts 0 (repeat w N) ++ [dm_nr a]) as [|o rest] eqn:Eo; [cbn; eauto|].
  destruct ((o =? 0) && (last (o :: rest) 0 =? dm_nr a) && monotone (o :: rest)) eqn:Ec; [|cbn; eauto].
  destruct (offsets_ok w (dm_nr a) N Hn o rest Eo Ec) as [->|[-> Ew]]; [contradiction|]. specialize (Hc eq_refl).
  cbn in Eo. injection Eo as <- <-. cbn [rbind List.combine map seq fst snd]. rewrite Ew, (row_block_full a Ha Hd).
  apply rzip_first_err. apply bind_err with (e := EException). cbn [fst snd].
  apply (mx_with_err (fst (buildE_m zero et)) a Ha Hd Hc Ew). lia.
Qed.

Lemma rzip_one {A B C} (f : A -> B -> res (list C)) a b : rmap (@concat _) (rzip f [a] [b]) = f a b.
Proof. cbn [rzip]. destruct (f a b) as [c|]; [|reflexivity]. cbn. now rewrite app_nil_r. Qed.
Lemma t_build_one et (a : dm T) pre : e_name et = "t"%string -> e_dims et = [1%Z] -> DmOk a -> sp_is_dense (dm_sp a) = true ->
  buildS_m zero (mkStruct [et] [OName "t"]) a pre =
  let* sub := snd (buildE_m zero et) a (pre ++ at_col 0) in
  let* m := mx_with_sparsity zero (fst (buildE_m zero et)) a in Ok (sub ++ [(pre ++ at_col 0, m)]).
Proof.
  intros En Ed Ha Hd. rewrite (t_build et 1 a pre En Ed). cbn [repeat starts app]. unfold vertsplit_m. cbn [last monotone Nat.leb]. rewrite !Nat.eqb_refl. cbn [andb rbind List.combine map fst snd seq].
  rewrite (row_block_full a Ha Hd), rzip_one. reflexivity.
Qed.

(** ** [repeated] *)
Theorem repeated_mx_iff s c (a : dm T) : Wf s -> casadi_structure s = Ok c -> cs_size c <> 0 -> DmOk a -> dm_nr a = cs_size c -> sp_is_dense (dm_sp a) = true ->
  (exists vw, repeated_mx zero s c a = Ok vw) <-> dm_nc a = 1.
Proof.
  intros Hw Hc H0 Ha Hr Hd. destruct (repeated_ok s c a Hw Hc Ha Hr Hd) as (vw0 & ct & et & E0 & Hv0). unfold repeated_mx. rewrite E0. cbn [rbind].
  destruct Hv0 as [Eq Est En Ed Es Hwt Hct Hlen]. subst vw0. unfold with_map. cbn [vw_obj so_c]. split.
  - intros (vw & H). destruct (Nat.eq_dec (dm_nc a) 1) as [E|E]; [exact E|]. exfalso. rewrite Est in H.
    destruct (t_build_err et (dm_nc a) a [] En Ed Ha Hd) as (e & Ee); [|exact E|intros ->; lia|rewrite Ee in H; discriminate].
    destruct et as [n d st sp sy og sh]. cbn in Es. subst st. cbn [buildE_m fst]. rewrite Hc, nnz_dense_col. lia.
  - intros E. assert (El : length (dm_nz a) = cs_size ct).
    { rewrite (size_formula _ _ Hwt Hct), <- (tot_size _ Hwt), Est, (r_leaves et s (dm_nc a) En Ed Es), <- Est. rewrite (r_tot ct et s c (dm_nc a)); auto. }
    destruct (build_ok zero (cs_struct ct) Hwt ct (dm_nz a) [] Hct El) as (pm & Hpm & _).
    apply (build_col _ Hwt) in Hpm. assert (Ea : dm_col (dm_nz a) = a).
    { destruct a as [sp nz]. unfold dm_col. cbn [dm_nz]. f_equal. rewrite (sp_dense_shape sp (proj1 Ha) Hd). unfold dm_nr, dm_nc in *. cbn in *. rewrite Hlen, E, Hr. f_equal. lia. }
    rewrite Ea in Hpm. rewrite Hpm. cbn. eauto.
Qed.

(** The one column then reads like an MX structure. *)
Lemma repeated_symm s c (a : dm T) vw ct et : Wf s -> repeated_ s c a = Ok vw -> so_c (vw_obj vw) = ct -> s_entries (cs_struct ct) = [et] -> e_symm et = false.
Proof.
  intros Hw H Ec Ee. unfold repeated_ in H. destruct (negb (dm_nr a =? cs_size c)); [discriminate|].
  set (kw := [("struct"%string, VStructure s); ("repeat"%string, VInt (Z.of_nat (dm_nc a)))]) in *.
  assert (Hk : NoDup (map fst kw)) by (repeat constructor; simpl; intuition discriminate).
  assert (Hv : forall k v, given kw k v -> ValOk (T := T) v) by (intros k v [[= <- <-]|[[= <- <-]|[]]]; simpl; auto).
  assert (He : exists ce, entry_init (T := T) "t" kw = Ok ce /\ e_symm (ce_entry ce) = false) by (unfold entry_init, kw; cbn; eexists; split; reflexivity).
  destruct He as (ce & He & Hs). destruct (t_struct (entry_init "t" kw)) as [ct'|] eqn:Et; [|discriminate]. cbn [rbind] in H.
  destruct (t_struct_built kw _ ct' Hk Hv He Et) as (_ & _ & Hent & _).
  unfold dense_elems in H. destruct (sp_is_dense (dm_sp a)); [|discriminate]. cbn [rbind] in H. unfold ref_struct in H.
  destruct (negb _); [discriminate|]. cbn [rbind] in H. injection H as <-. cbn [vw_obj so_c] in Ec. subst ct'. rewrite Hent in Ee. now injection Ee as <-.
Qed.

Lemma mx_get_k s c pm k st ci e m r : Wf s -> At s ci e -> cmap_get ci (cs_map c) = Some m -> cmap_get ci pm = Some r -> e_symm e = false ->
  getitem zero s (Env (cs_map c) pm k []) (pidx ci) st = Ok (RMat r).
Proof.
  intros Hw Ha Hm Hr Hs. unfold getitem. rewrite <- (app_nil_r (pidx ci)), (travS_at zero s ci e Ha Hw).
  simpl. unfold mwrap, getter. simpl. rewrite Hm, Hr, Hs. reflexivity.
Qed.

Theorem repeated_mx_reads s c (a : dm T) vw : Wf s -> casadi_structure s = Ok c -> cs_size c <> 0 -> DmOk a -> repeated_mx zero s c a = Ok vw ->
  view_matrix vw = dm_nz a /\
  view_get zero vw [PInt 0] = Ok (RMat a) /\
  forall ci e m, At s ci e -> e_symm e = false -> i_get zero s (pidx ci) = Ok (RIdx m) ->
    view_get zero vw (PInt 0 :: pidx ci) = Ok (RMat (DM (dm_sp m) (map (fun k => nth k (dm_nz a) zero) (dm_nz m)))).
Proof.
  intros Hw Hc H0 Ha H.
  assert (Hb : dm_nr a = cs_size c /\ sp_is_dense (dm_sp a) = true).
  { unfold repeated_mx in H. destruct (repeated_ s c a) as [vw0|] eqn:E0; [|discriminate]. unfold repeated_ in E0.
    destruct (Nat.eqb_spec (dm_nr a) (cs_size c)) as [E|]; [|discriminate]. split; [exact E|]. cbn [negb] in E0.
    destruct (t_struct _); [|discriminate]. cbn [rbind] in E0. unfold dense_elems in E0. destruct (sp_is_dense (dm_sp a)); [reflexivity|discriminate]. }
  destruct Hb as [Hr Hd]. assert (E1 : dm_nc a = 1) by (apply (repeated_mx_iff s c a Hw Hc H0 Ha Hr Hd); eauto).
  destruct (repeated_ok s c a Hw Hc Ha Hr Hd) as (vw0 & ct & et & E0 & Hv0). unfold repeated_mx in H. rewrite E0 in H. cbn [rbind] in H.
  destruct Hv0 as [Eq Est En Ed Es Hwt Hct Hlen]. assert (Hsy : e_symm et = false).
  { apply (repeated_symm s c a vw0 ct et Hw E0); [now rewrite Eq|now rewrite Est]. }
  subst vw0. unfold with_map in H. cbn [vw_obj so_c] in H.
  assert (El : length (dm_nz a) = cs_size ct).
  { rewrite (size_formula _ _ Hwt Hct), <- (tot_size _ Hwt), Est, (r_leaves et s (dm_nc a) En Ed Es), <- Est. rewrite (r_tot ct et s c (dm_nc a)); auto. }
  destruct (build_ok zero (cs_struct ct) Hwt ct (dm_nz a) [] Hct El) as (pm & Hpm & _ & Hget).
  apply (build_col _ Hwt) in Hpm. assert (Ea : dm_col (dm_nz a) = a).
  { destruct a as [sp nz]. unfold dm_col. cbn [dm_nz]. f_equal. rewrite (sp_dense_shape sp (proj1 Ha) Hd). unfold dm_nr, dm_nc in *. cbn in *. rewrite Hlen, E1, Hr. f_equal. lia. }
  rewrite Ea in Hpm. rewrite Hpm in H. cbn [rbind] in H. injection H as <-. cbn [en_map so_env en_kind en_mapping so_st vw_prefix].
  split; [reflexivity|].
  pose proof (r_block ct et s (dm_nc a) 0 Est En Ed Es ltac:(lia)) as Hbl.
  assert (Hs : leaves (cs_struct ct) = [] ++ map (app (at_col 0)) (leaves s) ++ []).
  { rewrite Est, (r_leaves et s (dm_nc a) En Ed Es), E1. reflexivity. }
  assert (Hat : At (cs_struct ct) (at_col 0) et).
  { rewrite Est. pose proof (At_here (mkStruct [et] [OName "t"]) et [0%Z] (or_introl eq_refl)) as X. rewrite En, Ed, E1 in X. apply X. repeat constructor; lia. }
  split.
  - unfold view_get, so_get. cbn [vw_obj vw_prefix so_c so_env so_st app]. change [PStr "t"; PInt 0] with (pidx (T := T) (at_col 0)).
    assert (Hne : leaves s <> []). { intros E. apply H0. rewrite (build_size s c Hw Hc), E. reflexivity. }
    pose proof (map_block (cs_struct ct) ct (at_col 0) s [] [] Hwt Hct Hbl Hne Hs) as Hm.
    rewrite (mx_get_k (cs_struct ct) ct pm KRep _ (at_col 0) et _ _ Hwt Hat Hm (Hget _ _ Hm) Hsy). do 2 f_equal.
    unfold dm_col. rewrite seq_length, <- (build_size s c Hw Hc). rewrite (vals_seq zero _ _ 0 (cs_size c)) by (rewrite Hlen, E1; lia).
    rewrite firstn_all2 by (cbn; rewrite Hlen, E1; lia). rewrite <- Ea at 2. unfold dm_col. do 2 f_equal. rewrite Hlen, E1. lia.
  - intros ci e m Hae Hse Hi. rewrite (i_get_at zero s c ci e Hw Hc Hae) in Hi. destruct (cmap_get ci (cs_map c)) as [m'|] eqn:Em; [|discriminate]. injection Hi as ->.
    unfold view_get, so_get. cbn [vw_obj vw_prefix so_c so_env so_st app]. change (PStr "t" :: PInt 0 :: pidx ci) with (pidx (T := T) (at_col 0 ++ ci)).
    assert (Hat' : At (cs_struct ct) (at_col 0 ++ ci) e).
    { rewrite Est. pose proof (At_sub (mkStruct [et] [OName "t"]) et [0%Z] s ci e (or_introl eq_refl) Es) as X. rewrite En, Ed, E1 in X. apply X; [repeat constructor; lia|exact Hae]. }
    pose proof (block_map (cs_struct ct) ct (at_col 0) s c [] [] ci Hwt Hct Hbl Hc Hs (At_starts _ _ _ Hae)) as Hm. rewrite Em in Hm.
    rewrite (mx_get_k (cs_struct ct) ct pm KRep _ _ e _ _ Hwt Hat' Hm (Hget _ _ Hm) Hse). do 2 f_equal.
    unfold vals, dm_map, dm_shift. cbn [dm_sp dm_nz]. rewrite map_map. reflexivity.
Qed.

(** ** [squared_repeated] *)
Lemma mx_with_same (a : dm T) sp : dm_sp a = sp -> mx_with_sparsity zero sp a = Ok a.
Proof. intros <-. unfold mx_with_sparsity. now rewrite spy_eqb_refl. Qed.

Theorem squared_repeated_mx_iff s c (a : dm T) N : Wf s -> casadi_structure s = Ok c -> DmOk a -> cs_size c <> 0 ->
  dm_shape a = (cs_size c, N * cs_size c) -> sp_is_dense (dm_sp a) = true ->
  (exists vw, squared_repeated_mx zero s c a = Ok vw) <-> N = 1.
Proof.
  intros Hw Hc Ha H0 Hsh Hd. destruct (squared_repeated_ok s c a N Hw Hc Ha H0 Hsh Hd) as (vw0 & ct & E0 & Hv0). unfold squared_repeated_mx. rewrite E0. cbn [rbind].
  destruct Hv0 as [Eq Est Hwt Hct Hlen]. subst vw0. unfold with_map. cbn [vw_obj so_c]. rewrite Est.
  unfold dm_shape in Hsh. injection Hsh as Hr Hcl. split.
  - intros (vw & H). destruct (Nat.eq_dec N 1) as [E|E]; [exact E|]. exfalso.
    destruct (t_build_err (entry_q s (cs_size c) N) N a [] eq_refl eq_refl Ha Hd) as (e & Ee); [|exact E|intros ->; lia|rewrite Ee in H; discriminate].
    cbn [buildE_m entry_q fst]. rewrite nnz_dense, Hr. nia.
  - intros ->. rewrite (t_build_one (entry_q s (cs_size c) 1) a [] eq_refl eq_refl Ha Hd). cbn [buildE_m entry_q fst snd rbind].
    rewrite mx_with_same; [cbn; eauto|]. rewrite (sp_dense_shape _ (proj1 Ha) Hd). unfold dm_nr, dm_nc in Hr, Hcl. rewrite Hr, Hcl. f_equal. lia.
Qed.

(** ** Objects that differ only in [priority_object_map], around one leaf *)
(** The same assignments, whatever they return, to two views. *)
Inductive Both : view -> view -> view -> view -> Prop :=
| Both_none : forall vw vd, Both vw vd vw vd
| Both_more : forall vw vd vw1 vd1 vw2 vd2 q v r r', view_set zero vw q v = (vw1, r) -> view_set zero vd q v = (vd1, r') ->
    Both vw1 vd1 vw2 vd2 -> Both vw vd vw2 vd2.

Lemma leaf_same (s : structure) mp pm k mpg st ci e q : Wf s -> At s ci e -> e_struct e = None ->
  (forall v, setitem zero s (Env mp pm k mpg) (pidx ci ++ q) v st = setitem zero s (Env mp [] k mpg) (pidx ci ++ q) v st) /\
  (q <> [] -> getitem zero s (Env mp pm k mpg) (pidx ci ++ q) st = getitem zero s (Env mp [] k mpg) (pidx ci ++ q) st).
Proof.
  intros Hw Ha He. split.
  - intros v. unfold setitem. rewrite !(travS_at zero s ci e Ha Hw). unfold endD, subT. rewrite He. destruct q; reflexivity.
  - intros Hq. unfold getitem. rewrite !(travS_at zero s ci e Ha Hw). unfold endD, subT. rewrite He. destruct q; [contradiction|reflexivity].
Qed.

Lemma t_build_plain sp sh (a : dm T) : dm_sp a = sp -> sp_is_dense sp = true -> DmOk a ->
  buildS_m zero (mkStruct [mkEntry "t" [] None sp false None sh] [OName "t"]) a [] = Ok [([KS "t"], a)].
Proof.
  intros Es Hd Ha. rewrite buildS_m_eq. unfold build_items_m. change (tops _) with [[KS "t"]]. cbn [rmapM rbind].
  cbn [map fst snd starts app buildE_m e_name pydict fold_left dict_set dict_get String.eqb Ascii.eqb Bool.eqb rbind].
  unfold vertsplit_m. cbn [last monotone Nat.leb]. rewrite !Nat.eqb_refl. cbn [andb rbind List.combine map fst snd].
  rewrite row_block_full by (auto; now rewrite Es). cbn [rzip fst snd rbind]. rewrite (mx_with_same a sp Es). reflexivity.
Qed.

Lemma both_same ct e pm (k : mkind) (vw0 vd0 vw vd : view) : Wf (cs_struct ct) -> At (cs_struct ct) [KS "t"] e -> e_struct e = None -> Both vw0 vd0 vw vd -> forall st0,
  vd0 = View (SObj ct (Env (cs_map ct) [] k []) st0) [PStr "t"] -> vw0 = View (SObj ct (Env (cs_map ct) pm k []) st0) [PStr "t"] ->
  exists st, vd = View (SObj ct (Env (cs_map ct) [] k []) st) [PStr "t"] /\ vw = View (SObj ct (Env (cs_map ct) pm k []) st) [PStr "t"].
Proof.
  intros Hw Ha He H. induction H as [vw vd|vw vd vw1 vd1 vw2 vd2 q v r r' E1 E2 H IH]; intros st0 Ed Ew; [eauto|]. subst.
  unfold view_set, so_set in E1, E2. cbn [vw_obj vw_prefix so_c so_env so_st app] in E1, E2.
  change (PStr "t" :: q) with (pidx (T := T) [KS "t"] ++ q) in E1, E2.
  rewrite (proj1 (leaf_same (cs_struct ct) (cs_map ct) pm k [] st0 [KS "t"] e q Hw Ha He) v) in E1.
  destruct (setitem zero (cs_struct ct) (Env (cs_map ct) [] k []) (pidx [KS "t"] ++ q) v st0) as [st1 r1].
  injection E1 as <- <-. injection E2 as <- <-. eapply IH; reflexivity.
Qed.

Theorem product_mx_same s c s2 c2 (a : dm T) : Wf s -> Wf s2 -> casadi_structure s = Ok c -> casadi_structure s2 = Ok c2 ->
  DmOk a -> dm_sp a = sp_dense (cs_size c) (cs_size c2) ->
  exists vw0 vd0, product_mx zero s c s2 c2 a = Ok vw0 /\ product_ s c s2 c2 a = Ok vd0 /\
    (forall q, view_get zero vw0 q = view_get zero vd0 q) /\
    forall vw vd, Both vw0 vd0 vw vd ->
      view_matrix vw = view_matrix vd /\
      (forall q v, snd (view_set zero vw q v) = snd (view_set zero vd q v)) /\
      (forall q, q <> [] -> view_get zero vw q = view_get zero vd q) /\
      view_get zero vw [] = Ok (RMat a).
Proof.
  intros Hw Hw2 Hc Hc2 Ha Hsp.
  assert (Hsh : dm_shape a = (cs_size c, cs_size c2)) by (unfold dm_shape, dm_nr, dm_nc; now rewrite Hsp).
  assert (Hd : sp_is_dense (sp_dense (cs_size c) (cs_size c2)) = true) by (unfold sp_is_dense; rewrite nnz_dense; cbn; apply Nat.eqb_refl).
  destruct (product_ok s c s2 c2 a Hw Hw2 Hc Hc2 Hsp) as (vd0 & Hvd). destruct (product_inv s c s2 c2 a vd0 Hw Hw2 Hc Hc2 Ha Hsh Hvd) as (ct & Hpv).
  unfold product_mx. rewrite (fill_not_needed a _ _ Hsh), Hvd. cbn [rbind]. destruct Hpv as [Eq Est Hwt Hct _ _]. subst vd0.
  unfold with_map. cbn [vw_obj so_c so_env so_st en_map en_kind en_mapping vw_prefix]. rewrite Est. unfold entry_t.
  rewrite (t_build_plain _ _ a Hsp Hd Ha). cbn [rbind]. eexists. eexists. split; [reflexivity|]. split; [reflexivity|].
  destruct (t_leaf ct (entry_t s s2 (cs_size c) (cs_size c2)) Est eq_refl eq_refl eq_refl Hwt Hct) as (Hat & Hm & Hsz). cbn [entry_t e_sp] in Hm.
  assert (Hlen : length (dm_nz a) = cs_size ct) by (rewrite Hsz; cbn [entry_t e_sp]; rewrite <- Hsp; apply Ha).
  assert (Hwhole : forall st, getitem zero (cs_struct ct) (Env (cs_map ct) [([KS "t"], a)] KNz []) (pidx [KS "t"]) st = Ok (RMat a)).
  { intros st. eapply mx_get_k; eauto; reflexivity. }
  split.
  - intros q. unfold view_get, so_get. cbn [vw_obj vw_prefix so_c so_env so_st app]. change (PStr "t" :: q) with (pidx (T := T) [KS "t"] ++ q).
    destruct q as [|x q]; [|apply (leaf_same _ _ _ _ _ _ _ _ _ Hwt Hat eq_refl); discriminate].
    rewrite app_nil_r, Hwhole, <- (app_nil_r (pidx [KS "t"])), (get_kind zero (cs_struct ct) ct KNz [] _ [KS "t"] _ [] Hwt Hat eq_refl), app_nil_r.
    rewrite (getitem_at zero (cs_struct ct) ct (PState (dm_nz a) [] []) [KS "t"] _ _ ltac:(split; [exact Hwt|exact Hct|exact Hlen]) Hat eq_refl Hm). cbn [ps_master].
    rewrite (vals_seq zero _ _ 0) by (rewrite Hlen, Hsz; reflexivity). do 2 f_equal. cbn [skipn]. rewrite firstn_all2 by (rewrite Hlen, Hsz; reflexivity).
    destruct a. cbn in *. now subst.
  - intros vw vd Hb. destruct (both_same ct _ _ KNz _ _ vw vd Hwt Hat eq_refl Hb _ eq_refl eq_refl) as (st & -> & ->). split; [reflexivity|].
    unfold view_set, view_get, so_set, so_get. cbn [vw_obj vw_prefix so_c so_env so_st]. split; [|split].
    + intros q v. change ([PStr "t"] ++ q) with (pidx (T := T) [KS "t"] ++ q).
      rewrite (proj1 (leaf_same (cs_struct ct) (cs_map ct) _ KNz [] st [KS "t"] _ q Hwt Hat eq_refl) v).
      destruct (setitem _ _ _ _ _ _). reflexivity.
    + intros q Hq. exact (proj2 (leaf_same (cs_struct ct) (cs_map ct) _ KNz [] st [KS "t"] _ q Hwt Hat eq_refl) Hq).
    + apply Hwhole.
Qed.

(** One block of a stack of squares reads like the square view. *)
Theorem squared_repeated_mx_reads s c (a : dm T) vw : Wf s -> casadi_structure s = Ok c -> DmOk a ->
  dm_sp a = sp_dense (cs_size c) (cs_size c) -> squared_repeated_mx zero s c a = Ok vw ->
  view_matrix vw = dm_nz a /\ view_get zero vw [PInt 0] = Ok (RMat a) /\
  exists vd, squared_repeated_ s c a = Ok vd /\ forall q, q <> [] -> view_get zero vw (PInt 0 :: q) = view_get zero vd (PInt 0 :: q).
Proof.
  intros Hw Hc Ha Hsp H. assert (H0 : cs_size c <> 0).
  { intros E. unfold squared_repeated_mx, squared_repeated_ in H. unfold dm_nr in H. rewrite Hsp, E in H. discriminate. }
  assert (Hsh : dm_shape a = (cs_size c, 1 * cs_size c)) by (unfold dm_shape, dm_nr, dm_nc; rewrite Hsp, Nat.mul_1_l; reflexivity).
  assert (Hd : sp_is_dense (dm_sp a) = true) by (rewrite Hsp; unfold sp_is_dense; rewrite nnz_dense; cbn; apply Nat.eqb_refl).
  destruct (squared_repeated_ok s c a 1 Hw Hc Ha H0 Hsh Hd) as (vd & ct & E0 & Hv0). unfold squared_repeated_mx in H. rewrite E0 in H. cbn [rbind] in H.
  destruct Hv0 as [Eq Est Hwt Hct Hlen]. subst vd. unfold with_map in H. cbn [vw_obj so_c so_env so_st en_map en_kind en_mapping vw_prefix] in H. rewrite Est in H.
  rewrite (t_build_one (entry_q s (cs_size c) 1) a [] eq_refl eq_refl Ha Hd) in H. cbn [buildE_m entry_q fst snd rbind] in H.
  rewrite (mx_with_same a _ Hsp) in H. cbn [rbind app] in H. injection H as <-. split; [reflexivity|].
  pose proof (q_leaf s c 1 ct 0 Est ltac:(lia)) as Hl. destruct (Leaf_At _ _ _ Hl) as [Hat He].
  pose proof (q_map s c 1 ct 0 Est Hwt Hct ltac:(lia)) as Hm. split.
  - unfold view_get, so_get. cbn [vw_obj vw_prefix so_c so_env so_st app]. change [PStr "t"; PInt 0] with (pidx (T := T) (at_col 0)).
    eapply mx_get_k; eauto; reflexivity.
  - eexists. split; [exact E0|]. intros q Hq. unfold view_get, so_get. cbn [vw_obj vw_prefix so_c so_env so_st app].
    change (PStr "t" :: PInt 0 :: q) with (pidx (T := T) (at_col 0) ++ q).
    exact (proj2 (leaf_same (cs_struct ct) (cs_map ct) _ KRep [] _ (at_col 0) _ q Hwt Hat He) Hq).
Qed.
End P.
