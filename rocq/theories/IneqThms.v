(** Proofs about inequalities (C36-C39). *)
From Coq Require Import Permutation.
From Verif Require Import PyBase IndexModel DMModel StructModel StructSpec PowerModel PowerSpec
  IndexProofs StructProofs LayoutProofs LayoutThms LayoutExamples DMProofs PowerProofs PowerThms SliceProofs PowerThms2 PowerThms3 PowerThms4
  EntryModel EntrySpec EntryProofs StructsModel StructsSpec StructsThms1 StructsThms2 StructsThms3 StructsThms4 StructsThms6 StructsThms11 IneqModel IneqSpec.
Open Scope nat_scope.

Section P.
Context {A X : Type} (leA : A -> A -> Prop) (a0 : A) (sym : string -> nat * nat -> X -> xnum A).
Notation V := (xnum A).
Notation F := (X -> xnum A).
Notation xle := (xle leA).
Notation Sat := (Sat leA a0).
Notation z := (@Fin A a0).
Notation fz := (fun _ : X => @Fin A a0).
Notation ineq := (ineq A X).
Notation Stored := (Stored a0).
Notation SatNz := (SatNz leA a0).
Notation picks := (picks a0).

Lemma shape_eqb_eq a b : shape_eqb a b = true <-> a = b.
Proof.
  unfold shape_eqb. destruct a as [x1 x2], b as [y1 y2]. simpl. rewrite andb_true_iff, !Nat.eqb_eq. split; [intros [-> ->]; reflexivity|intros [= -> ->]; auto].
Qed.

Lemma dm_scalar_ok (v : V) : DmOk (dm_scalar v). Proof. split; [apply SpOk_dense|reflexivity]. Qed.
Lemma dense_ok {B} r c (l : list B) : length l = r * c -> DmOk (DM (sp_dense r c) l).
Proof. intros H. split; [apply SpOk_dense|]. unfold sp_nnz. simpl. now rewrite all_pos_length. Qed.
Lemma dense_fun_val {B} (b : B) r c (f : nat * nat -> B) i j : i < r -> j < c -> elem b (DM (sp_dense r c) (map f (all_pos r c))) i j = f (i, j).
Proof.
  intros Hi Hj. unfold elem, dm_val, dm_at. simpl. rewrite pos_assoc_fun. assert (H : pos_mem (i, j) (all_pos r c) = true) by (apply pos_mem_In, in_all_pos; auto).
  now rewrite H.
Qed.
Lemma repeat_const {B C} (b : C) (l : list B) : repeat b (length l) = map (fun _ => b) l.
Proof. induction l; simpl; congruence. Qed.
Lemma const_val {B} (b v : B) r c i j : i < r -> j < c -> elem b (DM (sp_dense r c) (repeat v (r * c))) i j = v.
Proof. intros Hi Hj. rewrite <- all_pos_length, repeat_const. exact (dense_fun_val b r c (fun _ => v) i j Hi Hj). Qed.
Lemma all_pos_col n : all_pos n 1 = map (fun i => (i, 0)) (seq 0 n).
Proof. unfold all_pos. simpl. now rewrite app_nil_r. Qed.
Lemma map_nth_seq {B} (b : B) l : map (fun i => nth i l b) (seq 0 (length l)) = l.
Proof.
  induction l as [|x l IH]; [reflexivity|]. simpl. f_equal. rewrite <- seq_shift, map_map. exact IH.
Qed.
Lemma col_val {B} (b : B) l i : i < length l -> elem b (dm_col l) i 0 = nth i l b.
Proof.
  intros Hi. unfold dm_col. rewrite <- (map_nth_seq b l) at 2.
  replace (map (fun i0 => nth i0 l b) (seq 0 (length l))) with (map (fun p => nth (fst p) l b) (all_pos (length l) 1)).
  - exact (dense_fun_val b (length l) 1 (fun p => nth (fst p) l b) i 0 Hi (Nat.lt_0_succ 0)).
  - rewrite all_pos_col, map_map. reflexivity.
Qed.

Lemma dm_col_ok {B} (l : list B) : DmOk (dm_col l).
Proof. apply dense_ok. lia. Qed.

(** ** C36 *)

Lemma to_dm_spec a b : to_dm a = Ok b -> arg_shape a = Some (bd_shape b) /\
  (forall r c, r < fst (bd_shape b) -> c < snd (bd_shape b) -> ArgOk a -> elem z (bd_mat b) r c = arg_val a0 a r c) /\
  (ArgOk a -> DmOk (bd_mat b) /\ dm_shape (bd_mat b) = bd_shape b).
Proof.
  destruct a; simpl; try discriminate; intros [= <-]; simpl; (split; [reflexivity|]); unfold dm_shape, dm_nr, dm_nc; simpl; split.
  - intros r c Hr Hc _. replace r with 0 by lia. replace c with 0 by lia. reflexivity.
  - intros _. split; [apply dm_scalar_ok|reflexivity].
  - intros r c Hr Hc _. replace c with 0 by lia. apply col_val. exact Hr.
  - intros _. split; [apply dm_col_ok|reflexivity].
  - intros r c Hr Hc _. apply (dense_fun_val z nr nc (fun p => f (fst p) (snd p))); auto.
  - intros _. split; [apply dense_ok; now rewrite map_length, all_pos_length|reflexivity].
  - intros r c Hr Hc _. reflexivity.
  - intros H. split; [exact H|reflexivity].
  - intros r c Hr Hc Hok. replace c with 0 by lia. apply col_val. now rewrite Hok.
  - intros H. split; [apply dm_col_ok|]. now rewrite H.
Qed.
Lemma to_dm_total (a : barg A) sh : arg_shape a = Some sh -> exists b, to_dm a = Ok b.
Proof. destruct a; simpl; try discriminate; intros _; eauto. Qed.

Theorem inequality_iff (e : ex A X) lb ub nom :
  (exists i, inequality_ e lb ub nom = Ok i) <-> ShapeOk e lb /\ ShapeOk e ub /\ ShapeOk e nom.
Proof.
  assert (G : forall v a, (exists b, match a with ANone => Ok (BdMat (const_dm v (ex_shape e))) | _ => to_dm a end = Ok b /\ bd_shape b = ex_shape e) <-> ShapeOk e a).
  { intros v a. split.
    - intros (b & Hb & Hs). unfold ShapeOk. destruct a; try (right; rewrite <- Hs; exact (proj1 (to_dm_spec _ _ Hb))). now left.
    - intros [->|H]; [eexists; split; [reflexivity|]; destruct (ex_shape e); reflexivity|].
      destruct (to_dm_total _ _ H) as [b Hb]. pose proof (proj1 (to_dm_spec _ _ Hb)) as Hs. rewrite H in Hs. injection Hs as Hs.
      exists b. split; [|now symmetry]. destruct a; simpl in *; auto; discriminate. }
  rewrite <- (G NInf lb), <- (G PInf ub). unfold inequality_. split.
  - intros [i H]. destruct (match lb with ANone => _ | _ => _ end) as [l|]; [|discriminate]. cbn [rbind] in H.
    destruct (match ub with ANone => _ | _ => _ end) as [u|]; [|discriminate]. cbn [rbind] in H.
    destruct (shape_eqb (bd_shape l) (ex_shape e)) eqn:E1; [|discriminate]. destruct (shape_eqb (bd_shape u) (ex_shape e)) eqn:E2; [|discriminate].
    apply shape_eqb_eq in E1, E2. split; [eauto|]. split; [eauto|]. cbn [rassert rbind andb] in H.
    assert (K : nom = ANone \/ exists b, to_dm nom = Ok b /\ bd_shape b = ex_shape e).
    { destruct nom; [now left|..]; right; (destruct (to_dm _) as [n|]; [|discriminate]); cbn [rbind] in H;
        (destruct (shape_eqb (bd_shape n) (ex_shape e)) eqn:E3; [|discriminate]); apply shape_eqb_eq in E3; eauto. }
    destruct K as [->|(b & Hb & Hs)]; [now left|right]. rewrite <- Hs. exact (proj1 (to_dm_spec _ _ Hb)).
  - intros ((l & -> & Hl) & (u & -> & Hu) & Hn). cbn [rbind].
    rewrite (proj2 (shape_eqb_eq _ _) Hl), (proj2 (shape_eqb_eq _ _) Hu). cbn [andb rassert rbind].
    apply (G NaN) in Hn as (b & Hb & Hs). apply shape_eqb_eq in Hs. destruct nom; [eauto|..]; rewrite Hb; cbn [rbind]; rewrite Hs; cbn [rassert rbind]; eauto.
Qed.

Lemma stored_ok (e : ex A X) a dflt b : ArgOk a ->
  match a with ANone => Ok (BdMat (const_dm dflt (ex_shape e))) | _ => to_dm a end = Ok b -> bd_shape b = ex_shape e -> Stored b e a dflt.
Proof.
  intros Hok H Hs. split; [exact Hs|]. intros r c Hr Hc.
  destruct a; try (rewrite <- Hs in Hr, Hc; exact (proj1 (proj2 (to_dm_spec _ _ H)) r c Hr Hc Hok)).
  injection H as <-. apply const_val; auto.
Qed.
Lemma nom_cases e l u (nom : barg A) (i : ineq) :
  match nom with
  | ANone => Ok (Ineq e l u None)
  | _ => let* n := to_dm nom in let* _ := rassert (shape_eqb (bd_shape n) (ex_shape e)) in Ok (Ineq e l u (Some n))
  end = Ok i ->
  (nom = ANone /\ i = Ineq e l u None) \/ exists b, nom <> ANone /\ to_dm nom = Ok b /\ bd_shape b = ex_shape e /\ i = Ineq e l u (Some b).
Proof.
  intros H. assert (D : nom = ANone \/ (nom <> ANone /\ (let* n := to_dm nom in let* _ := rassert (shape_eqb (bd_shape n) (ex_shape e)) in Ok (Ineq e l u (Some n))) = Ok i)).
  { destruct nom; [left; reflexivity|right; split; [discriminate|exact H]..]. }
  destruct D as [->|[Hne K]]; [left; split; [reflexivity|congruence]|right]. destruct (to_dm nom) as [n|]; [|discriminate]. cbn [rbind] in K.
  destruct (shape_eqb (bd_shape n) (ex_shape e)) eqn:E3; [|discriminate]. apply shape_eqb_eq in E3. injection K as <-. exists n. auto.
Qed.
Theorem inequality_fields (e : ex A X) lb ub nom i :
  ArgOk lb -> ArgOk ub -> ArgOk nom -> inequality_ e lb ub nom = Ok i ->
  iq_expr i = e /\ iq_numel i = fst (ex_shape e) * snd (ex_shape e) /\
  Stored (iq_lb i) e lb NInf /\ Stored (iq_ub i) e ub PInf /\
  match iq_nom i with None => nom = ANone | Some n => nom <> ANone /\ Stored n e nom NaN end.
Proof.
  intros Hl Hu Hn H. unfold inequality_ in H.
  destruct (match lb with ANone => _ | _ => _ end) as [l|] eqn:El; [|discriminate]. cbn [rbind] in H.
  destruct (match ub with ANone => _ | _ => _ end) as [u|] eqn:Eu; [|discriminate]. cbn [rbind] in H.
  destruct (shape_eqb (bd_shape l) (ex_shape e)) eqn:E1; [|discriminate]. destruct (shape_eqb (bd_shape u) (ex_shape e)) eqn:E2; [|discriminate].
  apply shape_eqb_eq in E1, E2. cbn [rassert rbind andb] in H.
  assert (K : (nom = ANone /\ i = Ineq e l u None) \/ exists b, nom <> ANone /\ to_dm nom = Ok b /\ bd_shape b = ex_shape e /\ i = Ineq e l u (Some b)).
  { destruct (nom_cases _ _ _ _ _ H) as [[-> ->]|(n & Hne & En & E3 & ->)]; [auto|right; eauto 6]. }
  pose proof (stored_ok e lb NInf l Hl El E1) as SL. pose proof (stored_ok e ub PInf u Hu Eu E2) as SU.
  destruct K as [[-> ->]|(b & Hne & Hb & Hs & ->)]; simpl; (split; [reflexivity|]); (split; [reflexivity|]); (split; [exact SL|]); (split; [exact SU|]).
  - reflexivity.
  - split; [exact Hne|]. apply stored_ok; auto. destruct nom; auto. now contradiction Hne.
Qed.

Lemma ex_mat_ok (e : ex A X) : ExOk e -> exists m, ex_mat e = Ok m /\ DmOk m /\ dm_shape m = ex_shape e.
Proof.
  destruct e as [m|o]; simpl; [eauto|]. intros (_ & _ & c & -> & Hl). eexists. split; [reflexivity|]. split; [apply dm_col_ok|].
  unfold dm_shape, dm_nr, dm_nc. simpl. now rewrite Hl.
Qed.

(** Without bounds everything (that is a number) is allowed. *)
Theorem inequality_free (e : ex A X) nom i x m :
  ExOk e -> ArgOk nom -> inequality_ e ANone ANone nom = Ok i -> ex_mat e = Ok m ->
  (Sat i x <-> forall r c, r < fst (ex_shape e) -> c < snd (ex_shape e) -> elem fz m r c x <> NaN).
Proof.
  intros He Hn H Hm. destruct (inequality_fields e ANone ANone nom i I I Hn H) as (Ee & _ & [_ Hl] & [_ Hu] & _).
  destruct (ex_mat_ok e He) as (m' & Hm' & _ & Hs). rewrite Hm in Hm'. injection Hm' as <-. unfold IneqSpec.Sat. rewrite Ee, <- Hs. simpl. split.
  - intros (m1 & Hm1 & S) r c Hr Hc. rewrite Hm in Hm1. injection Hm1 as <-. destruct (S r c Hr Hc) as [_ S2].
    intros E. rewrite E in S2. exact S2.
  - intros S. exists m. split; [exact Hm|]. intros r c Hr Hc. rewrite <- Hs in Hl, Hu. rewrite (Hl r c Hr Hc), (Hu r c Hr Hc).
    specialize (S r c Hr Hc). destruct (elem fz m r c x); simpl; auto.
Qed.

(** BoundedVariable: a fresh symbol of the shape of the nominal value. *)
Theorem bounded_variable_spec n lb ub (nom : barg A) i :
  ArgOk lb -> ArgOk ub -> ArgOk nom -> bounded_variable sym n lb ub nom = Ok i ->
  exists sh m, arg_shape nom = Some sh /\ ex_mat (iq_expr i) = Ok m /\ dm_shape m = sh /\
    (forall r c, r < fst sh -> c < snd sh -> elem fz m r c = sym n (r, c)) /\
    Stored (iq_lb i) (iq_expr i) lb NInf /\ Stored (iq_ub i) (iq_expr i) ub PInf /\
    exists b, iq_nom i = Some b /\ Stored b (iq_expr i) nom NaN.
Proof.
  intros Hl Hu Hn H.
  assert (G : exists sh, arg_shape nom = Some sh /\ inequality_ (ExMat (mx_sym sym n sh)) lb ub nom = Ok i).
  { destruct nom; simpl in H; try discriminate; eexists; (split; [reflexivity|exact H]). }
  destruct G as (sh & Es & G). destruct (inequality_fields _ _ _ _ _ Hl Hu Hn G) as (Ee & _ & SL & SU & SN).
  rewrite Ee. exists sh, (mx_sym sym n sh). split; [exact Es|]. split; [reflexivity|]. split; [destruct sh; reflexivity|].
  split; [intros r c Hr Hc; apply dense_fun_val; auto|]. split; [exact SL|]. split; [exact SU|].
  destruct (iq_nom i) as [b|]; [exists b; split; [reflexivity|exact (proj2 SN)]|]. subst nom. discriminate.
Qed.

(** ** C37 *)
Lemma vcat2_spec {B} (a b : dm B) : DmOk a -> DmOk b -> dm_nc a = dm_nc b ->
  exists r, vcat2 a b = Ok r /\ DmOk r /\ dm_nr r = dm_nr a + dm_nr b /\ dm_nc r = dm_nc a /\
    (forall i j, i < dm_nr a -> dm_at r (i, j) = dm_at a (i, j)) /\
    (forall i j, i < dm_nr b -> dm_at r (dm_nr a + i, j) = dm_at b (i, j)).
Proof.
  intros Ha Hb Hc. unfold vcat2.
  destruct ((dm_nr a =? 0) && (dm_nc a =? 0)) eqn:E.
  { apply andb_true_iff in E as [E1 E2]. apply Nat.eqb_eq in E1, E2. exists b. rewrite E1. repeat split; try apply Hb; auto. intros; lia. }
  destruct ((dm_nr b =? 0) && (dm_nc b =? 0)) eqn:E'.
  { apply andb_true_iff in E' as [E1 E2]. apply Nat.eqb_eq in E1, E2. exists a. rewrite E1, Nat.add_0_r. repeat split; try apply Ha; auto. intros; lia. }
  rewrite Hc, Nat.eqb_refl. eexists. split; [reflexivity|]. split; [apply dm_build_ok|]. split; [reflexivity|]. split; [reflexivity|].
  assert (Hout : forall (d : dm B) i j, DmOk d -> dm_nc d <= j -> dm_at d (i, j) = None).
  { intros d i j Hd Hj. destruct (dm_at d (i, j)) eqn:Ed; [|reflexivity]. destruct (dm_at_bounds d _ _ Hd Ed). simpl in *. lia. }
  split; intros i j Hi; rewrite dm_build_at; cbn [fst snd].
  - destruct (Nat.ltb_spec i (dm_nr a)); [|lia]. destruct (Nat.ltb_spec i (dm_nr a + dm_nr b)); [|lia]. destruct (Nat.ltb_spec j (dm_nc b)); [reflexivity|].
    cbn [andb]. symmetry. apply Hout; auto. lia.
  - destruct (Nat.ltb_spec (dm_nr a + i) (dm_nr a + dm_nr b)); [|lia]. destruct (Nat.ltb_spec (dm_nr a + i) (dm_nr a)); [lia|].
    replace (dm_nr a + i - dm_nr a) with i by lia. destruct (Nat.ltb_spec j (dm_nc b)); [reflexivity|]. cbn [andb]. symmetry. apply Hout; auto.
Qed.

(** [r] is the vertical concatenation of the non-empty list [l]. *)
Definition IsVcat {B} (b : B) (l : list (dm B)) (r : dm B) : Prop :=
  DmOk r /\ dm_nr r = list_sum (map dm_nr l) /\
  forall k m, nth_error l k = Some m -> dm_nc r = dm_nc m /\
    forall i j, i < dm_nr m -> elem b r (list_sum (map dm_nr (firstn k l)) + i) j = elem b m i j.
Lemma vcat_spec {B} (b : B) : forall l (a : dm B), (forall m, In m (a :: l) -> DmOk m /\ dm_nc m = dm_nc a) ->
  exists r, vcat a l = Ok r /\ IsVcat b (a :: l) r.
Proof.
  induction l as [|c l IH]; intros a H.
  - exists a. split; [reflexivity|]. split; [now apply H; left|]. split; [simpl; lia|]. intros [|[|k]] m E; try discriminate. injection E as <-. simpl. auto.
  - destruct (IH c) as (r & Hr & Hok & Hrows & Hb).
    { intros m Hm. split; [apply (H m); now right|]. rewrite (proj2 (H m (or_intror Hm))). symmetry. apply (H c). right; now left. }
    destruct (Hb 0 c eq_refl) as [Hc _].
    destruct (vcat2_spec a r) as (r' & Hr' & Hok' & Hn & Hm & H1 & H2); [now apply H; left|exact Hok|rewrite Hc; symmetry; apply (H c); right; now left|].
    exists r'. simpl vcat. rewrite Hr. cbn [rbind]. split; [exact Hr'|]. split; [exact Hok'|]. split; [rewrite Hn, Hrows; reflexivity|].
    intros [|k] m E; simpl in E.
    + injection E as <-. split; [exact Hm|]. intros i j Hi. unfold elem, dm_val. simpl. now rewrite H1.
    + destruct (Hb k m E) as [Hc' Hv]. split; [rewrite Hm; symmetry; apply (H m); right; eapply nth_error_In; eauto|].
      intros i j Hi. rewrite <- (Hv i j Hi). unfold elem, dm_val. simpl firstn. simpl map. simpl list_sum. rewrite <- Nat.add_assoc, H2; [reflexivity|].
      rewrite Hrows. clear - E Hi. revert E. generalize (c :: l) as q. revert k. induction k as [|k IH]; intros [|x q] E; try discriminate; simpl in *.
      * injection E as ->. lia.
      * specialize (IH q E). lia.
Qed.
Lemma vcat_rows {B} (l : list (dm B)) : forall i, i < list_sum (map dm_nr l) ->
  exists k m i', nth_error l k = Some m /\ i' < dm_nr m /\ i = list_sum (map dm_nr (firstn k l)) + i'.
Proof.
  induction l as [|a l IH]; simpl; intros i Hi; [lia|]. destruct (Nat.lt_ge_cases i (dm_nr a)) as [H|H].
  - exists 0, a, i. auto.
  - destruct (IH (i - dm_nr a)) as (k & m & i' & E & Hi' & Ei); [lia|]. exists (S k), m, i'. simpl. split; [exact E|]. split; [exact Hi'|lia].
Qed.

(** The parts of a made inequality. *)
Lemma made_parts (i : ineq) : Made i -> exists m, ex_mat (iq_expr i) = Ok m /\ ExOk (iq_expr i) /\ DmOk m /\ dm_shape m = ex_shape (iq_expr i) /\
  (DmOk (bd_mat (iq_lb i)) /\ dm_shape (bd_mat (iq_lb i)) = dm_shape m) /\ (DmOk (bd_mat (iq_ub i)) /\ dm_shape (bd_mat (iq_ub i)) = dm_shape m) /\
  (forall n, iq_nom i = Some n -> DmOk (bd_mat n) /\ dm_shape (bd_mat n) = dm_shape m).
Proof.
  intros (e & lb & ub & nom & He & Hl & Hu & Hn & H). unfold inequality_ in H.
  destruct (match lb with ANone => _ | _ => _ end) as [l|] eqn:El; [|discriminate]. cbn [rbind] in H.
  destruct (match ub with ANone => _ | _ => _ end) as [u|] eqn:Eu; [|discriminate]. cbn [rbind] in H.
  destruct (shape_eqb (bd_shape l) (ex_shape e)) eqn:E1; [|discriminate]. destruct (shape_eqb (bd_shape u) (ex_shape e)) eqn:E2; [|discriminate].
  apply shape_eqb_eq in E1, E2. cbn [rassert rbind andb] in H.
  destruct (ex_mat_ok e He) as (m & Hm & Hok & Hs).
  assert (G : forall v (a : barg A) (b : bd A), ArgOk a -> match a with ANone => Ok (BdMat (const_dm v (ex_shape e))) | _ => to_dm a end = Ok b -> bd_shape b = ex_shape e ->
     DmOk (bd_mat b) /\ dm_shape (bd_mat b) = dm_shape m).
  { intros v a b Ha Hb Hbs. rewrite Hs, <- Hbs. destruct a; try exact (proj2 (proj2 (to_dm_spec _ _ Hb)) Ha).
    injection Hb as <-. split; [apply dense_ok; now rewrite repeat_length|reflexivity]. }
  pose proof (G _ _ _ Hl El E1) as GL. pose proof (G _ _ _ Hu Eu E2) as GU.
  assert (K : i = Ineq e l u None \/ exists b, to_dm nom = Ok b /\ bd_shape b = ex_shape e /\ i = Ineq e l u (Some b)).
  { destruct (nom_cases _ _ _ _ _ H) as [[-> ->]|(n & Hne & En & E3 & ->)]; [auto|right; eauto 6]. }
  exists m. destruct K as [->|(b & Hb & Hbs & ->)]; cbn [iq_expr iq_lb iq_ub iq_nom];
    (split; [exact Hm|]); (split; [exact He|]); (split; [exact Hok|]); (split; [exact Hs|]); (split; [exact GL|]); (split; [exact GU|]).
  - discriminate.
  - intros n [= <-]. apply (G NaN nom b); auto. destruct nom; auto. discriminate.
Qed.
Lemma sat_at (i : ineq) m x : ex_mat (iq_expr i) = Ok m ->
  (Sat i x <-> forall r c, r < dm_nr m -> c < dm_nc m ->
    xle (elem z (bd_mat (iq_lb i)) r c) (elem fz m r c x) /\ xle (elem fz m r c x) (elem z (bd_mat (iq_ub i)) r c)).
Proof.
  intros Hm. unfold IneqSpec.Sat. split; [intros (m' & E & H); rewrite Hm in E; injection E as <-; exact H|intros H; exists m; auto].
Qed.


Lemma rmapM_map {B C} (f : B -> res C) (g : B -> C) l : (forall b, In b l -> f b = Ok (g b)) -> rmapM f l = Ok (map g l).
Proof.
  induction l as [|b l IH]; intros H; [reflexivity|]. simpl. rewrite (H b (or_introl eq_refl)). cbn [rbind].
  rewrite IH by (intros; apply H; now right). reflexivity.
Qed.
Definition exm (i : ineq) : dm F := match ex_mat (iq_expr i) with Ok m => m | _ => DM (sp_dense 0 0) [] end.
Definition nomm (i : ineq) : dm V := match iq_nom i with Some b => bd_mat b | None => DM (sp_dense 0 0) [] end.
Definition nomb (i : ineq) : bd A := match iq_nom i with Some b => b | None => BdMat (DM (sp_dense 0 0) []) end.
Lemma opt_all_map (l : list ineq) : (forall i, In i l -> iq_nom i <> None) -> opt_all (map iq_nom l) = Ok (map nomb l).
Proof.
  induction l as [|i l IH]; intros H; [reflexivity|]. simpl. pose proof (H i (or_introl eq_refl)). unfold nomb at 1. destruct (iq_nom i); [|congruence].
  rewrite IH by (intros; apply H; now right). reflexivity.
Qed.
Lemma nomb_mat i : bd_mat (nomb i) = nomm i.
Proof. unfold nomb, nomm. now destruct (iq_nom i). Qed.

Theorem vertcat_list_spec a l nc : Joinable (a :: l) nc ->
  exists r m b, vertcat_list a l = Ok r /\ ex_mat (iq_expr r) = Ok m /\ iq_nom r = Some b /\
    rows r = row_off (a :: l) (S (length l)) /\ snd (ex_shape (iq_expr r)) = nc /\
    (forall k i, nth_error (a :: l) k = Some i ->
       (exists mi, ex_mat (iq_expr i) = Ok mi /\ holds_at fz m mi (row_off (a :: l) k)) /\
       holds_at z (bd_mat (iq_lb r)) (bd_mat (iq_lb i)) (row_off (a :: l) k) /\
       holds_at z (bd_mat (iq_ub r)) (bd_mat (iq_ub i)) (row_off (a :: l) k) /\
       exists bi, iq_nom i = Some bi /\ holds_at z (bd_mat b) (bd_mat bi) (row_off (a :: l) k)) /\
    (forall x, Sat r x <-> forall i, In i (a :: l) -> Sat i x).
Proof.
  intros H.
  assert (P : forall i, In i (a :: l) -> ex_mat (iq_expr i) = Ok (exm i) /\ dm_shape (exm i) = (rows i, nc) /\
     DmOk (exm i) /\ (DmOk (bd_mat (iq_lb i)) /\ dm_shape (bd_mat (iq_lb i)) = (rows i, nc)) /\ (DmOk (bd_mat (iq_ub i)) /\ dm_shape (bd_mat (iq_ub i)) = (rows i, nc)) /\
     (DmOk (nomm i) /\ dm_shape (nomm i) = (rows i, nc))).
  { intros i Hi. destruct (H i Hi) as (Hm & Hc & Hn). destruct (made_parts i Hm) as (m & Em & _ & Hok & Hs & Hl & Hu & HN).
    assert (Es : dm_shape m = (rows i, nc)) by (rewrite Hs; unfold rows; rewrite <- Hc; now destruct (ex_shape (iq_expr i))).
    unfold exm, nomm. rewrite Em. rewrite Es in *. destruct (iq_nom i) as [n|]; [|congruence]. specialize (HN n eq_refl). auto 8. }
  assert (NN : forall i, In i (a :: l) -> iq_nom i <> None) by (intros i Hi; apply (H i Hi)).
  clear H.
  assert (SH : forall B (d : dm B) r c, dm_shape d = (r, c) -> dm_nr d = r /\ dm_nc d = c) by (intros B d r c; unfold dm_shape; intros [= <- <-]; auto).
  assert (G : forall B (b : B) (f : ineq -> dm B), (forall i, In i (a :: l) -> DmOk (f i) /\ dm_shape (f i) = (rows i, nc)) ->
     exists r, vcat (f a) (map f l) = Ok r /\ dm_shape r = (row_off (a :: l) (S (length l)), nc) /\
       (forall k i, nth_error (a :: l) k = Some i -> holds_at b r (f i) (row_off (a :: l) k)) ).
  { intros B b f Hf. destruct (vcat_spec b (map f l) (f a)) as (r & Hr & Hok & Hrows & Hb).
    { change (f a :: map f l) with (map f (a :: l)). intros m Hm. apply in_map_iff in Hm as (i & <- & Hi). destruct (Hf i Hi) as [O S1]. split; [exact O|].
      destruct (Hf a (or_introl eq_refl)) as [_ S2]. destruct (SH _ _ _ _ S1), (SH _ _ _ _ S2). congruence. }
    change (f a :: map f l) with (map f (a :: l)) in *.
    assert (Hfn : forall q, (forall i, In i q -> In i (a :: l)) -> map dm_nr (map f q) = map rows q).
    { intros q Hq. rewrite map_map. apply map_ext_in. intros i Hi. destruct (Hf i (Hq i Hi)) as [_ S1]. apply (SH _ _ _ _ S1). }
    exists r. split; [exact Hr|].
    assert (Hnc : dm_nc r = nc). { destruct (Hb 0 (f a) eq_refl) as [-> _]. destruct (Hf a (or_introl eq_refl)) as [_ S1]. apply (SH _ _ _ _ S1). }
    assert (Hrr : dm_nr r = row_off (a :: l) (S (length l))). { rewrite Hrows, Hfn by auto. unfold row_off. change (S (length l)) with (length (a :: l)). now rewrite firstn_all. }
    split; [unfold dm_shape; now rewrite Hrr, Hnc|]. intros k i Ei.
    destruct (Hb k (f i)) as [Hc Hv]; [now apply map_nth_error|]. rewrite firstn_map, Hfn in Hv.
    2:{ intros i0 Hi0. rewrite <- (firstn_skipn k (a :: l)). apply in_or_app. now left. }
    fold (row_off (a :: l) k) in Hv. intros p q Hp Hq. split; [|split; [now rewrite Hc|apply Hv; exact Hp]].
    rewrite Hrr. destruct (Hf i (nth_error_In _ _ Ei)) as [_ S1]. destruct (SH _ _ _ _ S1) as [S2 _]. rewrite S2 in Hp. clear - Ei Hp.
    unfold row_off. change (S (length l)) with (length (a :: l)). rewrite firstn_all. revert k Ei. generalize (a :: l) as w. induction w as [|y w IH]; intros [|k] E; try discriminate; simpl in *.
    - injection E as ->. lia.
    - specialize (IH k E). lia. }
  destruct (G _ fz exm) as (m & Em & Sm & Hm); [intros i Hi; destruct (P i Hi) as (_ & ? & ? & _); auto|].
  destruct (G _ z (fun i => bd_mat (iq_lb i))) as (lb & El & Sl & Hl); [intros i Hi; apply (P i Hi)|].
  destruct (G _ z (fun i => bd_mat (iq_ub i))) as (ub & Eu & Su & Hu); [intros i Hi; apply (P i Hi)|].
  destruct (G _ z nomm) as (n & En & Sn & Hn); [intros i Hi; apply (P i Hi)|].
  assert (SS : (dm_shape lb = dm_shape m /\ dm_shape ub = dm_shape m) /\ dm_shape n = dm_shape m) by (rewrite Sm, Sl, Su, Sn; auto).
  destruct SS as [[S1 S2] S3]. destruct (SH _ _ _ _ Sm) as [Nr Nc].
  exists (Ineq (ExMat m) (BdMat lb) (BdMat ub) (Some (BdMat n))), m, (BdMat n).
  assert (EV : vertcat_list a l = Ok (Ineq (ExMat m) (BdMat lb) (BdMat ub) (Some (BdMat n)))).
  { unfold vertcat_list. rewrite (proj1 (P a (or_introl eq_refl))). cbn [rbind]. rewrite (rmapM_map _ exm) by (intros i Hi; apply (P i); now right).
    cbn [rbind]. rewrite Em, El, Eu. cbn [rbind].
    assert (ON : opt_all [iq_nom a] = Ok [nomb a]). { change [iq_nom a] with (map iq_nom [a]). rewrite (opt_all_map [a]); [reflexivity|]. intros i [<-|[]]. apply NN. now left. }
    rewrite ON, (opt_all_map l) by (intros i Hi; apply NN; now right). cbn [rbind]. rewrite nomb_mat, map_map.
    rewrite (map_ext _ _ nomb_mat), En. cbn [rbind]. unfold inequality_. cbn [to_dm rbind bd_shape ex_shape].
    rewrite S1, S2, S3, (proj2 (shape_eqb_eq _ _) eq_refl). reflexivity. }
  split; [exact EV|]. split; [reflexivity|]. split; [reflexivity|]. split; [exact Nr|]. split; [exact Nc|]. cbn [iq_expr iq_lb iq_ub iq_nom bd_mat].
  split.
  - intros k i Ei. pose proof (nth_error_In _ _ Ei) as Hi. split; [exists (exm i); split; [apply (P i Hi)|now apply Hm]|]. split; [now apply (Hl k i)|]. split; [now apply (Hu k i)|].
    pose proof (NN i Hi) as Ni. pose proof (Hn k i Ei) as Hni. unfold nomm in Hni. destruct (iq_nom i) as [bi|]; [|congruence]. exists bi. auto.
  - intros x. rewrite (sat_at (Ineq (ExMat m) (BdMat lb) (BdMat ub) (Some (BdMat n))) m x eq_refl). cbn [iq_expr iq_lb iq_ub iq_nom bd_mat]. split.
    + intros S i Hi. destruct (In_nth_error _ _ Hi) as [k Ek]. destruct (P i Hi) as (Ei & Shi & _ & [_ Sli] & [_ Sui] & _).
      destruct (SH _ _ _ _ Shi) as [A1 A2], (SH _ _ _ _ Sli) as [B1 B2], (SH _ _ _ _ Sui) as [C1 C2].
      apply (sat_at i (exm i) x Ei). intros r c Hr Hc.
      destruct (Hm k i Ek r c Hr Hc) as (Q1 & Q2 & Q3). destruct (Hl k i Ek r c) as (_ & _ & L3); [rewrite B1; lia|rewrite B2; lia|]. destruct (Hu k i Ek r c) as (_ & _ & U3); [rewrite C1; lia|rewrite C2; lia|].
      specialize (S _ c Q1 Q2). rewrite Q3, L3, U3 in S. exact S.
    + intros S r c Hr Hc. rewrite Nr in Hr.
      assert (R : exists k i r', nth_error (a :: l) k = Some i /\ r' < rows i /\ r = row_off (a :: l) k + r').
      { clear - Hr. unfold row_off in *. change (S (length l)) with (length (a :: l)) in Hr. rewrite firstn_all in Hr. revert r Hr. generalize (a :: l) as w.
        induction w as [|y w IH]; simpl; intros r Hr; [lia|]. destruct (Nat.lt_ge_cases r (rows y)) as [H|H]; [exists 0, y, r; auto|].
        destruct (IH (r - rows y)) as (k & i & r' & E & Hr' & Er); [lia|]. exists (S k), i, r'. simpl. split; [exact E|]. split; [exact Hr'|lia]. }
      destruct R as (k & i & r' & Ek & Hr' & ->). pose proof (nth_error_In _ _ Ek) as Hi. destruct (P i Hi) as (Ei & Shi & _ & [_ Sli] & [_ Sui] & _).
      destruct (SH _ _ _ _ Shi) as [A1 A2], (SH _ _ _ _ Sli) as [B1 B2], (SH _ _ _ _ Sui) as [C1 C2].
      specialize (S i Hi). apply (proj1 (sat_at i (exm i) x Ei)) with (r := r') (c := c) in S; [|lia|lia].
      destruct (Hm k i Ek r' c) as (_ & _ & Q3); [lia|lia|]. destruct (Hl k i Ek r' c) as (_ & _ & L3); [lia|lia|]. destruct (Hu k i Ek r' c) as (_ & _ & U3); [lia|lia|].
      rewrite Q3, L3, U3. exact S.
Qed.

(** ** C39: what happens when a nominal value is missing. *)
Theorem vertcat_list_needs_nominal (a : ineq) l : (exists i, In i (a :: l) /\ iq_nom i = None) -> forall r, vertcat_list a l <> Ok r.
Proof.
  intros (i & Hi & Hn) r E. unfold vertcat_list in E.
  destruct (ex_mat (iq_expr a)) as [ea|]; [|discriminate]. cbn [rbind] in E.
  destruct (rmapM _ l) as [es|]; [|discriminate]. cbn [rbind] in E. destruct (vcat ea es) as [e|]; [|discriminate]. cbn [rbind] in E.
  destruct (vcat _ (map _ l)) as [lb|]; [|discriminate]. cbn [rbind] in E. destruct (vcat _ (map _ l)) as [ub|]; [|discriminate]. cbn [rbind] in E.
  destruct (opt_all [iq_nom a]) as [na|] eqn:Ea; [|discriminate]. cbn [rbind] in E. destruct (opt_all (map iq_nom l)) as [ns|] eqn:Es; [|discriminate].
  destruct Hi as [->|Hi].
  - rewrite Hn in Ea. discriminate.
  - clear - Hi Hn Es. revert ns Es. induction l as [|j l IH]; simpl; intros ns Es; [destruct Hi|]. destruct Hi as [->|Hi]; [rewrite Hn in Es; discriminate|].
    destruct (iq_nom j); [|discriminate]. destruct (opt_all (map iq_nom l)) as [q|]; [|discriminate]. exact (IH Hi q eq_refl).
Qed.

(** ** C38 *)
Definition exkv (e : ex A X) (m : dm F) : kval F := match e with ExMat m => VMat m | ExStr o => VStructured (cs_struct (so_c o)) m end.
Lemma dict_item n (e : ex A X) m : ExOk e -> ex_mat e = Ok m ->
  (let* v := ex_kval e in let* en := entry_ [AName n] [("expr"%string, v)] in Ok (IOne (AEntry en))) = Ok (plain_item (n, (exkv e m, m))).
Proof.
  destruct e as [m'|o]; simpl.
  - intros _ [= ->]. reflexivity.
  - intros (Hw & Hc & c & -> & Hl) [= <-]. cbn. rewrite Hc. unfold plain_item, plain_entry. simpl. now rewrite Hl.
Qed.
Lemma fit_same {B} (b : B) (m : dm B) sp p : SpOk sp -> dm_shape m = (sp_nr sp, sp_nc sp) -> In p (sp_pat sp) -> fit b m sp p = dm_val b m p.
Proof.
  intros Hs Hsh Hp. unfold fit. assert (E : dm_nr m = sp_nr sp /\ dm_nc m = sp_nc sp) by (unfold dm_shape in Hsh; injection Hsh; auto). destruct E as [E1 E2].
  destruct (dm_is_scalar m) eqn:Es.
  - unfold dm_is_scalar in Es. apply andb_true_iff in Es as [S1 S2]. apply Nat.eqb_eq in S1, S2.
    destruct p as [r c]. destruct Hs as [_ Hs]. rewrite Forall_forall in Hs. destruct (Hs _ Hp) as [P1 P2]. simpl in *. replace r with 0 by lia. now replace c with 0 by lia.
  - now rewrite E1, E2, !Nat.eqb_refl.
Qed.


Theorem vertcat_dict_spec (d : list (string * ineq)) :
  NoDup (map fst d) -> (forall k i, In (k, i) d -> Made i /\ iq_nom i <> None) ->
  exists r o ol ou on, vertcat_dict a0 d = Ok r /\ iq_expr r = ExStr o /\ iq_lb r = BdStr ol /\ iq_ub r = BdStr ou /\ iq_nom r = Some (BdStr on) /\
    so_c ol = so_c o /\ so_c ou = so_c o /\ so_c on = so_c o /\ s_keys (cs_struct (so_c o)) = map fst d /\
    (forall k i, In (k, i) d -> exists m b dl du dn, ex_mat (iq_expr i) = Ok m /\ iq_nom i = Some b /\
       veccat_get fz o [PStr k] = Ok (RMat m) /\
       so_get z ol [PStr k] = Ok (RMat dl) /\ picks dl (bd_mat (iq_lb i)) (dm_sp m) /\
       so_get z ou [PStr k] = Ok (RMat du) /\ picks du (bd_mat (iq_ub i)) (dm_sp m) /\
       so_get z on [PStr k] = Ok (RMat dn) /\ picks dn (bd_mat b) (dm_sp m)) /\
    (forall x, Sat r x <-> forall k i, In (k, i) d -> SatNz i x).
Proof.
  intros Hnd H.
  assert (P : forall k i, In (k, i) d -> ex_mat (iq_expr i) = Ok (exm i) /\ ExOk (iq_expr i) /\ DmOk (exm i) /\
     (DmOk (bd_mat (iq_lb i)) /\ dm_shape (bd_mat (iq_lb i)) = dm_shape (exm i)) /\ (DmOk (bd_mat (iq_ub i)) /\ dm_shape (bd_mat (iq_ub i)) = dm_shape (exm i)) /\
     (DmOk (nomm i) /\ dm_shape (nomm i) = dm_shape (exm i)) /\ iq_nom i = Some (nomb i)).
  { intros k i Hi. destruct (H k i Hi) as (Hm & Hn). destruct (made_parts i Hm) as (m & Em & He & Hok & Hs & Hl & Hu & HN).
    unfold exm, nomm, nomb. rewrite Em. destruct (iq_nom i) as [n|]; [|congruence]. specialize (HN n eq_refl). auto 10. }
  clear H.
  set (l := map (fun kv => (fst kv, (exkv (iq_expr (snd kv)) (exm (snd kv)), exm (snd kv)))) d).
  assert (Hl1 : map fst l = map fst d) by (unfold l; rewrite map_map; reflexivity).
  assert (Hin : forall k i, In (k, i) d -> In (k, (exkv (iq_expr i) (exm i), exm i)) l) by (intros k i Hi; unfold l; apply in_map_iff; exists (k, i); auto).
  destruct (plain_mx fz l) as (o & cat & Ho & Hw & Hc & Hent & Hkeys & _ & Hcat & Hlen & Hg).
  { now rewrite Hl1. }
  { intros x Hx. unfold l in Hx. apply in_map_iff in Hx as ([k i] & <- & Hi). destruct (P k i Hi) as (E & He & Hok & _). simpl. split; [exact Hok|]. simpl.
    unfold exm. destruct (iq_expr i) as [m|o]; reflexivity. }
  rewrite Hl1 in Hkeys.
  assert (Hev : map e_name (s_entries (cs_struct (so_c o))) = map fst d) by (rewrite Hent, map_map; exact Hl1).
  assert (Hpe : forall k i, In (k, i) d -> In (plain_entry k (dm_sp (exm i))) (s_entries (cs_struct (so_c o)))).
  { intros k i Hi. rewrite Hent. apply in_map_iff. exists (k, (exkv (iq_expr i) (exm i), exm i)). auto. }
  assert (C : forall f : ineq -> dm V, (forall k i, In (k, i) d -> DmOk (f i) /\ dm_shape (f i) = dm_shape (exm i)) ->
     exists q, call_struct z NaN (so_c o) (CDict (map (fun kv => (fst kv, PayMat (f (snd kv)))) d)) = Ok q /\ so_c q = so_c o /\ length (so_cat q) = cs_size (so_c o) /\
       forall k i, In (k, i) d -> exists mi dl, cmap_get (top k []) (cs_map (so_c o)) = Some mi /\
         map (fun j => nth j (so_cat q) z) (dm_nz mi) = map (dm_val z (f i)) (sp_pat (dm_sp (exm i))) /\
         so_get z q [PStr k] = Ok (RMat dl) /\ picks dl (f i) (dm_sp (exm i))).
  { intros f Hf. destruct (plain_call z NaN _ _ (map (fun kv => (fst kv, f (snd kv))) d) Hw Hc) as (q & Hq & Hqc & Hql & Hqv).
    - now rewrite map_map.
    - intros k. rewrite map_map, Hev. reflexivity.
    - intros k m Hm. apply in_map_iff in Hm as ([k' i] & [= <- <-] & Hi). destruct (Hf k' i Hi) as [Hok Hs]. split; [exact Hok|].
      exists (dm_sp (exm i)). split; [|now apply Hpe]. right. left. exact Hs.
    - rewrite map_map in Hq. exists q. split; [exact Hq|]. split; [exact Hqc|]. split; [exact Hql|]. intros k i Hi.
      destruct (plain_map _ _ k _ Hw Hc (Hpe k i Hi)) as (mi & Hmi & _). destruct (Hf k i Hi) as [Hok Hs]. destruct (P k i Hi) as (_ & _ & Hokm & _).
      destruct (Hqv k (f i) (dm_sp (exm i)) mi) as [Q1 Q2]; [apply in_map_iff; exists (k, i); auto|now apply Hpe|exact Hmi|].
      assert (EF : map (fit z (f i) (dm_sp (exm i))) (sp_pat (dm_sp (exm i))) = map (dm_val z (f i)) (sp_pat (dm_sp (exm i)))).
      { apply map_ext_in. intros p Hp. apply fit_same; [apply Hokm|exact Hs|exact Hp]. }
      rewrite EF in Q1, Q2. exists mi. eexists. split; [exact Hmi|]. split; [exact Q1|]. split; [exact Q2|]. split; [reflexivity|]. intros [r c] Hp.
      unfold elem, dm_val at 1, dm_at. simpl. rewrite pos_assoc_fun, (proj2 (pos_mem_In _ _) Hp). reflexivity. }
  destruct (C (fun i => bd_mat (iq_lb i))) as (ol & Eol & Col & Lol & Vol); [intros k i Hi; apply (P k i Hi)|].
  destruct (C (fun i => bd_mat (iq_ub i))) as (ou & Eou & Cou & Lou & Vou); [intros k i Hi; apply (P k i Hi)|].
  destruct (C nomm) as (on & Eon & Con & Lon & Von); [intros k i Hi; apply (P k i Hi)|].
  set (r := Ineq (ExStr o) (BdStr ol) (BdStr ou) (Some (BdStr on))). exists r, o, ol, ou, on.
  assert (EV : vertcat_dict a0 d = Ok r).
  { unfold vertcat_dict. rewrite (rmapM_map _ (fun kv => plain_item (fst kv, (exkv (iq_expr (snd kv)) (exm (snd kv)), exm (snd kv))))).
    2:{ intros [k i] Hi. destruct (P k i Hi) as (E & He & _). exact (dict_item k _ _ He E). }
    cbn [rbind]. unfold l in Ho. rewrite map_map in Ho. change (f0 a0) with fz. rewrite Ho. cbn [rbind].
    change (v0 a0) with z. cbn [bd_pay]. rewrite Eol, Eou. cbn [rbind].
    rewrite (map_ext_in _ (fun kv => (fst kv, PayMat (nomm (snd kv))))), Eon.
    2:{ intros [k i] Hi. simpl. destruct (P k i Hi) as (_ & _ & _ & _ & _ & _ & E). rewrite E. simpl. now rewrite nomb_mat. }
    cbn [rbind]. unfold inequality_. cbn [to_dm rbind bd_shape ex_shape]. rewrite Col, Cou, Con, (proj2 (shape_eqb_eq _ _) eq_refl). reflexivity. }
  split; [exact EV|]. do 4 (split; [reflexivity|]). split; [exact Col|]. split; [exact Cou|]. split; [exact Con|]. split; [exact Hkeys|]. split.
  { intros k i Hi. destruct (P k i Hi) as (E & _ & _ & _ & _ & _ & En). destruct (Vol k i Hi) as (_ & dl & _ & _ & G1 & K1). destruct (Vou k i Hi) as (_ & du & _ & _ & G2 & K2). destruct (Von k i Hi) as (_ & dn & _ & _ & G3 & K3).
    exists (exm i), (nomb i), dl, du, dn. rewrite nomb_mat. destruct (Hg k _ _ (Hin k i Hi)) as [G0 _]. auto 12. }
  intros x.
  assert (Hm : ex_mat (iq_expr r) = Ok (dm_col cat)) by (simpl; now rewrite Hcat).
  assert (Pt : forall k i, In (k, i) d -> exists mi, cmap_get (top k []) (cs_map (so_c o)) = Some mi /\
    forall j q p, nth_error (dm_nz mi) j = Some q -> nth_error (sp_pat (dm_sp (exm i))) j = Some p ->
      nth q cat fz = dm_val fz (exm i) p /\ nth q (so_cat ol) z = dm_val z (bd_mat (iq_lb i)) p /\ nth q (so_cat ou) z = dm_val z (bd_mat (iq_ub i)) p).
  { intros k i Hi. destruct (Vol k i Hi) as (mi & _ & Hmi & V1 & _). exists mi. split; [exact Hmi|]. intros j q p Eq Ep.
    destruct (Vou k i Hi) as (mi2 & _ & Hmi2 & V2 & _). rewrite Hmi in Hmi2. injection Hmi2 as <-.
    destruct (Hg k _ _ (Hin k i Hi)) as (_ & mi3 & Hmi3 & _ & V3). rewrite Hmi in Hmi3. injection Hmi3 as <-.
    destruct (P k i Hi) as (_ & _ & Hokm & _). rewrite (nz_vals fz (exm i) Hokm) in V3.
    apply (f_equal (fun w => nth_error w j)) in V1, V2, V3. rewrite (map_nth_error _ _ _ Eq), (map_nth_error _ _ _ Ep) in V1. rewrite (map_nth_error _ _ _ Eq), (map_nth_error _ _ _ Ep) in V2. rewrite (map_nth_error _ _ _ Eq), (map_nth_error _ _ _ Ep) in V3.
    injection V1 as V1. injection V2 as V2. injection V3 as V3. auto. }
  assert (EL : forall i, i < cs_size (so_c o) -> elem fz (dm_col cat) i 0 = nth i cat fz /\ elem z (dm_col (so_cat ol)) i 0 = nth i (so_cat ol) z /\ elem z (dm_col (so_cat ou)) i 0 = nth i (so_cat ou) z).
  { intros i Hi. split; [|split]; apply col_val; lia. }
  rewrite (sat_at r _ x Hm). unfold r. cbn [iq_lb iq_ub bd_mat]. change (dm_nr (dm_col cat)) with (length cat). change (dm_nc (dm_col cat)) with 1. rewrite Hlen. split.
  - intros S k i Hi. destruct (P k i Hi) as (E & _ & Hokm & _). exists (exm i). split; [exact E|]. intros p Hp. destruct (In_nth_error _ _ Hp) as [j Ej].
    destruct (Pt k i Hi) as (mi & Hmi & Hv). destruct (plain_map _ _ k _ Hw Hc (Hpe k i Hi)) as (mi2 & Hmi2 & Hsp & [_ Hln] & Hb). rewrite Hmi in Hmi2. injection Hmi2 as <-.
    destruct (nth_error (dm_nz mi) j) as [q|] eqn:Eq.
    2:{ apply nth_error_None in Eq. assert (j < length (sp_pat (dm_sp (exm i)))) by (apply nth_error_Some; congruence). rewrite Hln, Hsp in Eq. unfold sp_nnz in Eq. lia. }
    destruct (Hv j q p Eq Ej) as (W1 & W2 & W3). assert (Hq : q < cs_size (so_c o)) by (rewrite Forall_forall in Hb; apply Hb; eapply nth_error_In; eauto).
    specialize (S q 0 Hq Nat.lt_0_1). destruct (EL q Hq) as (E1 & E2 & E3). rewrite E1, E2, E3, W1, W2, W3 in S. unfold elem. destruct p; exact S.
  - intros S q c Hq Hc1. replace c with 0 by lia. destruct (EL q Hq) as (-> & -> & ->).
    destruct (cover _ _ q Hw Hc Hq) as (e & idx & mi & He & Hidx & Hmi & Hq').
    rewrite Hent in He. apply in_map_iff in He as ([k [v m]] & <- & Hx). unfold l in Hx. apply in_map_iff in Hx as ([k' i] & [= Q1 Q2 Q3] & Hi). simpl in Q1. subst k'. subst m.
    simpl in Hidx, Hmi. inversion Hidx; subst idx.
    destruct (In_nth_error _ _ Hq') as [j Ej]. destruct (Pt k i Hi) as (mi2 & Hmi2 & Hv). rewrite Hmi in Hmi2. injection Hmi2 as <-.
    destruct (plain_map _ _ k _ Hw Hc (Hpe k i Hi)) as (mi2 & Hmi2 & Hsp & [_ Hln] & Hb). rewrite Hmi in Hmi2. injection Hmi2 as <-.
    destruct (nth_error (sp_pat (dm_sp (exm i))) j) as [p|] eqn:Ep.
    2:{ apply nth_error_None in Ep. assert (j < length (dm_nz mi)) by (apply nth_error_Some; congruence). rewrite Hln, Hsp in H. unfold sp_nnz in H. lia. }
    destruct (Hv j q p Ej Ep) as (-> & -> & ->). destruct (S k i Hi) as (m' & E' & S'). destruct (P k i Hi) as (E & _). rewrite E in E'. injection E' as <-.
    specialize (S' p (nth_error_In _ _ Ep)). unfold elem in S'. destruct p; exact S'.
Qed.

Lemma satnz_dense (i : ineq) m x : Made i -> ex_mat (iq_expr i) = Ok m -> dense m -> (SatNz i x <-> Sat i x).
Proof.
  intros _ Hm Hd. rewrite (sat_at i m x Hm). unfold IneqSpec.SatNz. split.
  - intros (m' & E & S) r c Hr Hc. rewrite Hm in E. injection E as <-. apply (S (r, c)). rewrite Hd. simpl. apply in_all_pos. auto.
  - intros S. exists m. split; [exact Hm|]. intros [r c] Hp. rewrite Hd in Hp. simpl in Hp. apply in_all_pos in Hp. apply S; apply Hp.
Qed.
Theorem vertcat_dict_sat_dense (d : list (string * ineq)) r x :
  NoDup (map fst d) -> (forall k i, In (k, i) d -> Made i /\ iq_nom i <> None /\ exists m, ex_mat (iq_expr i) = Ok m /\ dense m) ->
  vertcat_dict a0 d = Ok r -> (Sat r x <-> forall k i, In (k, i) d -> Sat i x).
Proof.
  intros Hnd H Hr. destruct (vertcat_dict_spec d Hnd) as (r' & o & ol & ou & on & Hr' & _ & _ & _ & _ & _ & _ & _ & _ & _ & S).
  { intros k i Hi. destruct (H k i Hi) as (? & ? & _). auto. }
  rewrite Hr in Hr'. injection Hr' as <-. rewrite S. split; intros K k i Hi; destruct (H k i Hi) as (Hm & _ & m & Em & Hd); apply (satnz_dense i m x Hm Em Hd); eauto.
Qed.

Theorem vertcat_dict_needs_nominal (d : list (string * ineq)) :
  NoDup (map fst d) -> (forall k i, In (k, i) d -> Made i) -> (exists k i, In (k, i) d /\ iq_nom i = None) -> forall r, vertcat_dict a0 d <> Ok r.
Proof.
  intros Hnd HM (k0 & i0 & Hi0 & Hn0) r E. unfold vertcat_dict in E.
  assert (P : forall k i, In (k, i) d -> ex_mat (iq_expr i) = Ok (exm i) /\ ExOk (iq_expr i) /\ DmOk (exm i) /\ forall n, iq_nom i = Some n -> DmOk (bd_mat n)).
  { intros k i Hi. destruct (made_parts i (HM k i Hi)) as (m & Em & He & Hok & Hs & Hl & Hu & HN). unfold exm. rewrite Em.
    split; [reflexivity|]. split; [exact He|]. split; [exact Hok|]. intros n En. apply (HN n En). }
  set (l := map (fun kv => (fst kv, (exkv (iq_expr (snd kv)) (exm (snd kv)), exm (snd kv)))) d).
  assert (Hl1 : map fst l = map fst d) by (unfold l; rewrite map_map; reflexivity).
  destruct (plain_mx fz l) as (o & cat & Ho & Hw & Hc & Hent & Hkeys & _ & Hcat & Hlen & Hg).
  { now rewrite Hl1. }
  { intros x Hx. unfold l in Hx. apply in_map_iff in Hx as ([k i] & <- & Hi). destruct (P k i Hi) as (_ & He & Hok & _). simpl. split; [exact Hok|]. simpl.
    unfold exm. destruct (iq_expr i) as [m|o]; reflexivity. }
  rewrite (rmapM_map _ (fun kv => plain_item (fst kv, (exkv (iq_expr (snd kv)) (exm (snd kv)), exm (snd kv))))) in E.
  2:{ intros [k i] Hi. destruct (P k i Hi) as (E1 & He & _). exact (dict_item k _ _ He E1). }
  cbn [rbind] in E. unfold l in Ho. rewrite map_map in Ho. change (f0 a0) with fz in E. rewrite Ho in E. cbn [rbind] in E.
  destruct (call_struct _ _ _ _) as [lb|]; [|discriminate]. cbn [rbind] in E. destruct (call_struct _ _ _ _) as [ub|]; [|discriminate]. cbn [rbind] in E.
  destruct (call_struct _ _ _ _) as [nom|] eqn:En; [|discriminate].
  apply (plain_call_none z NaN _ _ (map (fun kv => (fst kv, bd_pay (iq_nom (snd kv)))) d) k0 nom Hw Hc) in En; auto.
  - rewrite map_map. exact Hnd.
  - intros e He. rewrite Hent in He. apply in_map_iff in He as (x & <- & _). reflexivity.
  - intros j v Hj. apply in_map_iff in Hj as ([k i] & [= <- <-] & Hi). destruct (P k i Hi) as (_ & _ & _ & N). simpl. destruct (iq_nom i) as [n|]; [exact (N n eq_refl)|exact I].
  - apply in_map_iff. exists (k0, i0). simpl. rewrite Hn0. auto.
  - rewrite Hent, map_map. simpl. change (In k0 (map fst l)). rewrite Hl1. apply in_map_iff. exists (k0, i0). auto.
Qed.
End P.
