(** The code of decomon on a batch, sample by sample: domains, completion, utils.py, layers. *)
From Coq Require Import Reals List Arith Bool Lia Lra.
From Verif Require Import RLib Spec Spec_Batch M_Core M_Utils M_MergeLayers M_Ops M_Layers M_Convert M_Batch P_Core P_Merge P_Batch.
Import ListNotations.
Local Open Scope R_scope.

Lemma rank_mat : forall B b n s t w, sample_mat B b n s t w -> rank t = S (S (length s)).
Proof. intros B b n s t w [E _]. unfold rank. rewrite E. reflexivity. Qed.
Lemma rank_vec : forall B b s t v, sample_vec B b s t v -> rank t = S (length s).
Proof. intros B b s t v [E _]. unfold rank. rewrite E. reflexivity. Qed.

Section Layers.
Variables (D : domain) (B b n : nat).
Hypothesis Hb : (b < B)%nat.
Hypothesis Hn : (0 < n)%nat.

Notation SV := (sample_vec B b).
Notation SM := (sample_mat B b n).

Ltac kv s := match goal with |- exists r, bind (k2 ?f ?a ?c) _ = _ /\ _ =>
  let t := fresh "t" in let E := fresh "E" in let H := fresh "H" in
  edestruct (k2_vec B b Hb s f a c) as (t & E & H); [eauto using k1_vec|eauto using k1_vec|rewrite E; cbn [bind]; clear E] end.

(** ** domains *)
Section Box.
Variables (s : list nat) (x_min x_max w bt : nd) (v0 v1 : vec) (W : mat) (V : vec).
Hypothesis H0 : SV [n] x_min v0.
Hypothesis H1 : SV [n] x_max v1.
Hypothesis HW : SM s w W.
Hypothesis HV : SV s bt V.

Lemma box_ranks : Nat.eqb (rank w) (rank bt) = false /\ (rank w - rank x_max = length s)%nat.
Proof.
  rewrite (rank_mat _ _ _ _ _ _ HW), (rank_vec _ _ _ _ _ HV), (rank_vec _ _ _ _ _ H1). split; [apply Nat.eqb_neq; lia|cbn [length]; lia].
Qed.
Lemma t_upper_box_ok : exists t, t_upper_box x_min x_max w bt = Ok t /\ SV s t (get_upper_box n false v0 v1 W V).
Proof.
  destruct box_ranks as [E1 E2]. unfold t_upper_box. rewrite E1, E2.
  destruct (k2_row B b Hb n s Rmult (k1 (fun v => Rmax v 0) w) (k1 (fun v => v + 0 * v) x_max) _ _ (k1_mat B b n s _ w W HW) (k1_vec B b [n] _ x_max v1 H1)) as (p & -> & Hp). cbn [bind].
  destruct (k2_row B b Hb n s Rmult (k1 (fun v => Rmin v 0) w) (k1 (fun v => v + 0 * v) x_min) _ _ (k1_mat B b n s _ w W HW) (k1_vec B b [n] _ x_min v0 H0)) as (m & -> & Hm). cbn [bind].
  destruct (k2_mat B b Hb n s Rplus p m _ _ Hp Hm) as (a & -> & Ha). cbn [bind].
  destruct (k_sum_mat B b n s a _ Ha) as (r & -> & Hr). cbn [bind].
  destruct (k2_vec B b Hb s Rplus r bt _ _ Hr HV) as (o & -> & Ho). exists o. split; [reflexivity|]. revert Ho. apply vec_ext. intros j Hj.
  unfold get_upper_box. f_equal. apply rsum_ext. intros i Hi. ring.
Qed.
Lemma t_lower_box_ok : exists t, t_lower_box x_min x_max w bt = Ok t /\ SV s t (get_lower_box n false v0 v1 W V).
Proof.
  destruct box_ranks as [E1 E2]. unfold t_lower_box. rewrite E1, E2.
  destruct (k2_row B b Hb n s Rmult (k1 (fun v => Rmax v 0) w) (k1 (fun v => v + 0 * v) x_min) _ _ (k1_mat B b n s _ w W HW) (k1_vec B b [n] _ x_min v0 H0)) as (p & -> & Hp). cbn [bind].
  destruct (k2_row B b Hb n s Rmult (k1 (fun v => Rmin v 0) w) (k1 (fun v => v + 0 * v) x_max) _ _ (k1_mat B b n s _ w W HW) (k1_vec B b [n] _ x_max v1 H1)) as (m & -> & Hm). cbn [bind].
  destruct (k2_mat B b Hb n s Rplus p m _ _ Hp Hm) as (a & -> & Ha). cbn [bind].
  destruct (k_sum_mat B b n s a _ Ha) as (r & -> & Hr). cbn [bind].
  destruct (k2_vec B b Hb s Rplus r bt _ _ Hr HV) as (o & -> & Ho). exists o. split; [reflexivity|]. revert Ho. apply vec_ext. intros j Hj.
  unfold get_lower_box. f_equal. apply rsum_ext. intros i Hi. ring.
Qed.
End Box.

Lemma t_lq_norm_ok : forall s p w W, (p = Pnum 1 \/ p = Pnum 2) -> SM s w W ->
  exists t v, t_lq_norm w p 1 = Ok t /\ get_lq_norm n p W = Ok v /\ SV s t v.
Proof.
  intros s p w W [-> | ->] HW; cbn [t_lq_norm get_lq_norm].
  - destruct (k_max_mat B b n s (k1 Rabs w) _ Hn (k1_mat B b n s Rabs w W HW)) as (t & -> & Ht). eexists _, _. split; [reflexivity|]. split; [reflexivity|]. exact Ht.
  - destruct (k_sum_mat B b n s (k1 (fun v => v ^ 2) w) _ (k1_mat B b n s _ w W HW)) as (t & -> & Ht). eexists _, _. split; [reflexivity|]. split; [reflexivity|].
    apply (k1_vec B b s sqrt t _ Ht).
Qed.

Section Ball.
Variables (eps : R) (p : pord) (s : list nat) (x w bt : nd) (v : vec) (W : mat) (V : vec).
Hypothesis HD : norm_ok (Ball eps p).
Hypothesis Hx : SV [n] x v.
Hypothesis HW : SM s w W.
Hypothesis HV : SV s bt V.
Lemma norm_cases : p = Pinf \/ p = Pnum 1 \/ p = Pnum 2.
Proof. destruct p as [k|]; [|auto]. destruct k as [|[|[|k]]]; cbn in HD; try contradiction; auto. Qed.
Lemma ball_ranks : Nat.eqb (rank w) (rank bt) = false /\ (rank w - rank x = length s)%nat.
Proof. apply (box_ranks s x w bt v W V Hx HW HV). Qed.
Lemma t_upper_ball_ok : exists t u, t_upper_ball x eps p w bt = Ok t /\ get_upper_ball n false v eps p W V no_kw = Ok u /\ SV s t u.
Proof.
  destruct ball_ranks as [E1 E2]. unfold t_upper_ball, get_upper_ball. rewrite E1. destruct norm_cases as [-> | Hp].
  - destruct (t_upper_box_ok s (k1 (fun a => a - eps) x) (k1 (fun a => a + eps) x) w bt _ _ W V (k1_vec B b [n] _ x v Hx) (k1_vec B b [n] _ x v Hx) HW HV) as (t & -> & Ht).
    eexists _, _. split; [reflexivity|]. split; [reflexivity|]. exact Ht.
  - destruct (t_lq_norm_ok s p w W Hp HW) as (q & u & Eq & Eu & Hq).
    destruct (k2_vec B b Hb s Rplus (k1 (fun a => eps * a) q) bt _ _ (k1_vec B b s _ q u Hq) HV) as (a & Ea & Ha).
    destruct (k2_row B b Hb n s Rmult w x W v HW Hx) as (y & Ey & Hy).
    destruct (k_sum_mat B b n s y _ Hy) as (z & Ez & Hz).
    destruct (k2_vec B b Hb s Rplus z a _ _ Hz Ha) as (o & Eo & Ho).
    exists o. eexists. split; [|split; [|exact Ho]].
    + destruct Hp as [-> | ->]; rewrite Eq; cbn [bind]; rewrite Ea; cbn [bind]; rewrite E2, Ey; cbn [bind]; rewrite Ez; cbn [bind]; exact Eo.
    + destruct Hp as [-> | ->]; cbn [kw_nonempty no_kw is_some k_ft_upper k_ft_lower k_upper k_lower orb]; unfold get_upper_ball0; rewrite Eu; reflexivity.
Qed.
Lemma t_lower_ball_ok : exists t u, t_lower_ball x eps p w bt = Ok t /\ get_lower_ball n false v eps p W V no_kw = Ok u /\ SV s t u.
Proof.
  destruct ball_ranks as [E1 E2]. unfold t_lower_ball, get_lower_ball. rewrite E1. destruct norm_cases as [-> | Hp].
  - destruct (t_lower_box_ok s (k1 (fun a => a - eps) x) (k1 (fun a => a + eps) x) w bt _ _ W V (k1_vec B b [n] _ x v Hx) (k1_vec B b [n] _ x v Hx) HW HV) as (t & -> & Ht).
    eexists _, _. split; [reflexivity|]. split; [reflexivity|]. exact Ht.
  - destruct (t_lq_norm_ok s p w W Hp HW) as (q & u & Eq & Eu & Hq).
    destruct (k2_vec B b Hb s Rplus (k1 (fun a => - eps * a) q) bt _ _ (k1_vec B b s _ q u Hq) HV) as (a & Ea & Ha).
    destruct (k2_row B b Hb n s Rmult w x W v HW Hx) as (y & Ey & Hy).
    destruct (k_sum_mat B b n s y _ Hy) as (z & Ez & Hz).
    destruct (k2_vec B b Hb s Rplus z a _ _ Hz Ha) as (o & Eo & Ho).
    exists o. eexists. split; [|split; [|exact Ho]].
    + destruct Hp as [-> | ->]; rewrite Eq; cbn [bind]; rewrite Ea; cbn [bind]; rewrite E2, Ey; cbn [bind]; rewrite Ez; cbn [bind]; exact Eo.
    + destruct Hp as [-> | ->]; cbn [kw_nonempty no_kw is_some k_ft_upper k_ft_lower k_upper k_lower orb]; unfold get_lower_ball0; rewrite Eu; reflexivity.
Qed.
End Ball.

Hypothesis HD : norm_ok D.
Lemma t_get_upper_ok : forall s x w bt X W V, sample_dom D B b n x X -> SM s w W -> SV s bt V ->
  exists t u, t_get_upper D x w bt = Ok t /\ get_upper D n false X W V no_kw = Ok u /\ SV s t u.
Proof.
  intros s x w bt X W V Hx HW HV. unfold t_get_upper, get_upper. destruct D as [|eps p]; cbn [sample_dom] in Hx.
  - destruct (k_index_mat B b Hb 2%nat [n] x X 0 ltac:(lia) Hx) as (x0 & -> & H0). cbn [bind].
    destruct (k_index_mat B b Hb 2%nat [n] x X 1 ltac:(lia) Hx) as (x1 & -> & H1). cbn [bind].
    destruct (t_upper_box_ok s x0 x1 w bt _ _ W V H0 H1 HW HV) as (t & -> & Ht). eexists _, _. split; [reflexivity|]. split; [reflexivity|]. exact Ht.
  - apply t_upper_ball_ok; auto.
Qed.
Lemma t_get_lower_ok : forall s x w bt X W V, sample_dom D B b n x X -> SM s w W -> SV s bt V ->
  exists t u, t_get_lower D x w bt = Ok t /\ get_lower D n false X W V no_kw = Ok u /\ SV s t u.
Proof.
  intros s x w bt X W V Hx HW HV. unfold t_get_lower, get_lower. destruct D as [|eps p]; cbn [sample_dom] in Hx.
  - destruct (k_index_mat B b Hb 2%nat [n] x X 0 ltac:(lia) Hx) as (x0 & -> & H0). cbn [bind].
    destruct (k_index_mat B b Hb 2%nat [n] x X 1 ltac:(lia) Hx) as (x1 & -> & H1). cbn [bind].
    destruct (t_lower_box_ok s x0 x1 w bt _ _ W V H0 H1 HW HV) as (t & -> & Ht). eexists _, _. split; [reflexivity|]. split; [reflexivity|]. exact Ht.
  - apply t_lower_ball_ok; auto.
Qed.

(** ** the nine tensors *)
Definition aff_rel (s : list nat) (F : full nd) (r : full tensor) : Prop :=
  sample_dom D B b n (f_x F) (f_x r) /\ SM s (f_wu F) (f_wu r) /\ SV s (f_bu F) (f_bu r 0%nat) /\
  SM s (f_wl F) (f_wl r) /\ SV s (f_bl F) (f_bl r 0%nat).
Definition ibp_rel (s : list nat) (F : full nd) (r : full tensor) : Prop :=
  SV s (f_uc F) (f_uc r 0%nat) /\ SV s (f_lc F) (f_lc r 0%nat).
Definition out_rel (ib af : bool) (s : list nat) (F : full nd) (r : full tensor) : Prop :=
  (af = true -> aff_rel s F r) /\ (ib = true -> ibp_rel s F r).
Definition in_rel (ib af : bool) (s : list nat) (F : full nd) (r : full tensor) : Prop :=
  out_rel ib af s F r /\ f_h F = none_nd /\ f_g F = none_nd /\
  (af = false -> f_wu F = none_nd /\ f_bu F = none_nd /\ f_wl F = none_nd /\ f_bl F = none_nd).

Lemma extract_rel : forall mode s F r, out_rel (get_ibp mode) (get_affine mode) s F r ->
  sample D mode B b n s (extract mode false F) (extract mode false r).
Proof.
  intros mode s F r [Ha Hi]. unfold sample. destruct mode; cbn [extract kinds get_ibp get_affine app] in *.
  - destruct (Hi eq_refl). repeat (apply Forall3_cons; [cbn [sample_kind]; assumption|]); apply Forall3_nil.
  - destruct (Ha eq_refl) as (? & ? & ? & ? & ?). repeat (apply Forall3_cons; [cbn [sample_kind]; assumption|]); apply Forall3_nil.
  - destruct (Hi eq_refl). destruct (Ha eq_refl) as (? & ? & ? & ? & ?). repeat (apply Forall3_cons; [cbn [sample_kind]; assumption|]); apply Forall3_nil.
Qed.

Ltac f3 H := inversion H; subst; clear H.
Lemma unpack_rel : forall mode s T ts, sample D mode B b n s T ts ->
  exists F r, unpack none_nd mode false T = Ok F /\ unpack empty_tensor mode false ts = Ok r /\ in_rel (get_ibp mode) (get_affine mode) s F r.
Proof.
  intros mode s T ts H. unfold sample in H. destruct mode; cbn [kinds] in H;
    repeat match goal with H : Forall3 _ (_ :: _) _ _ |- _ => f3 H | H : Forall3 _ [] _ _ |- _ => f3 H end; cbn [sample_kind] in *;
    eexists _, _; (split; [reflexivity|]); (split; [reflexivity|]); split; cbn [get_ibp get_affine f_h f_g f_wu f_bu f_wl f_bl]; try (repeat split; try discriminate; reflexivity);
    (split; [intros Q; try discriminate Q|intros Q; try discriminate Q]); unfold aff_rel, ibp_rel; cbn [f_x f_uc f_wu f_bu f_lc f_wl f_bl]; auto.
Qed.

Definition has_ibp (mode : fmode) (ca : bool) : bool := (get_ibp mode || (ca && mode_eqb mode AFFINE))%bool.
Lemma complete_rel : forall mode ca ti s F r, in_rel (get_ibp mode) (get_affine mode) s F r ->
  exists F' r', t_complete D mode ca ti F = Ok F' /\ complete (mk_spec false mode D n) ca ti r = Ok r' /\ in_rel (has_ibp mode ca) (get_affine mode) s F' r'.
Proof.
  intros mode ca ti s F r H. pose proof H as [[Ha Hi] (Eh & Eg & En)]. unfold t_complete, complete, has_ibp. cbn [sp_mode sp_dom sp_n].
  destruct ((ca && mode_eqb mode AFFINE) || (ti && mode_eqb mode HYBRID))%bool eqn:Ec.
  - assert (Em : get_affine mode = true) by (destruct mode, ca, ti; cbn in Ec; try discriminate Ec; reflexivity).
    destruct (Ha Em) as (Hx & H1 & H2 & H3 & H4).
    destruct (t_get_upper_ok s _ _ _ _ _ _ Hx H1 H2) as (tu & u & Eu & Eu' & Hu). destruct (t_get_lower_ok s _ _ _ _ _ _ Hx H3 H4) as (tl & l & El & El' & Hl).
    rewrite Eu, El, Eu', El'. cbn [bind]. destruct mode; cbn [get_affine mode_eqb get_ibp] in *; [discriminate| |].
    + eexists _, _. split; [reflexivity|]. split; [reflexivity|]. split; [split; intros _; [|]|].
      * exact (Ha eq_refl).
      * unfold ibp_rel, vt; cbn [f_uc f_lc]; auto.
      * cbn [f_h f_g]. split; [exact Eh|]. split; [exact Eg|discriminate].
    + destruct (Hi eq_refl) as [Hi1 Hi2].
      destruct (k2_vec B b Hb s Rmin (f_uc F) tu _ _ Hi1 Hu) as (a & -> & Hau). cbn [bind].
      destruct (k2_vec B b Hb s Rmax (f_lc F) tl _ _ Hi2 Hl) as (c & -> & Hc). cbn [bind].
      eexists _, _. split; [reflexivity|]. split; [reflexivity|]. split; [split; intros _; [|]|].
      * exact (Ha eq_refl).
      * unfold ibp_rel, vt; cbn [f_uc f_lc]; auto.
      * cbn [f_h f_g]. split; [exact Eh|]. split; [exact Eg|discriminate].
  - exists F, r. split; [reflexivity|]. split; [reflexivity|]. replace (ca && mode_eqb mode AFFINE)%bool with false by (symmetry; apply orb_false_elim in Ec; apply Ec).
    rewrite orb_false_r. exact H.
Qed.
Lemma fullinputs_rel : forall mode ca ti s T ts, sample D mode B b n s T ts ->
  exists F r, t_fullinputs D mode ca ti T = Ok F /\ get_fullinputs (mk_spec false mode D n) ca ti ts = Ok r /\ in_rel (has_ibp mode ca) (get_affine mode) s F r.
Proof.
  intros mode ca ti s T ts H. destruct (unpack_rel mode s T ts H) as (F & r & E1 & E2 & HR). unfold t_fullinputs, get_fullinputs. cbn [sp_mode sp_dc]. rewrite E1, E2. cbn [bind].
  apply complete_rel; exact HR.
Qed.
Lemma has_ibp_true : forall mode, has_ibp mode true = true.
Proof. intros []; reflexivity. Qed.
Lemma has_ibp_false : forall mode, has_ibp mode false = get_ibp mode.
Proof. intros []; reflexivity. Qed.

(** ** utils.py *)
Lemma vec_add : forall s a c (u v : tensor), SV s a (u 0%nat) -> SV s c (v 0%nat) ->
  exists t, k2 Rplus a c = Ok t /\ SV s t (fun j => u 0%nat j + v 0%nat j).
Proof. intros s a c u v Ha Hc. apply (k2_vec B b Hb s Rplus a c _ _ Ha Hc). Qed.
Lemma t_add_rel : forall mode s T0 T1 ts0 ts1, sample D mode B b n s T0 ts0 -> sample D mode B b n s T1 ts1 ->
  exists T ts, t_add D mode T0 T1 = Ok T /\ add (mk_spec false mode D n) ts0 ts1 = Ok ts /\ sample D mode B b n s T ts.
Proof.
  intros mode s T0 T1 ts0 ts1 H0 H1. unfold t_add, add.
  destruct (fullinputs_rel mode true true s T0 ts0 H0) as (F0 & r0 & -> & -> & [[Ha0 Hi0] (Eh0 & Eg0 & En0)]).
  destruct (fullinputs_rel mode true true s T1 ts1 H1) as (F1 & r1 & -> & -> & [[Ha1 Hi1] (Eh1 & Eg1 & En1)]). cbn [bind].
  rewrite has_ibp_true in *. destruct (Hi0 eq_refl) as [U0 L0]. destruct (Hi1 eq_refl) as [U1 L1]. rewrite Eh0, Eg0, Eh1, Eg1.
  destruct (k2_none Rplus) as (hn & Ehn). rewrite Ehn. cbn [bind].
  destruct (k2_vec B b Hb s Rplus _ _ _ _ U0 U1) as (u & -> & Hu). cbn [bind].
  destruct (k2_vec B b Hb s Rplus _ _ _ _ L0 L1) as (l & -> & Hl). cbn [bind].
  destruct (get_affine mode) eqn:Em.
  - destruct (Ha0 eq_refl) as (X0 & A0 & B0 & C0 & D0). destruct (Ha1 eq_refl) as (X1 & A1 & B1 & C1 & D1).
    destruct (k2_mat B b Hb n s Rplus _ _ _ _ A0 A1) as (wu & -> & Hwu). cbn [bind].
    destruct (k2_mat B b Hb n s Rplus _ _ _ _ C0 C1) as (wl & -> & Hwl). cbn [bind].
    destruct (k2_vec B b Hb s Rplus _ _ _ _ B0 B1) as (bu & -> & Hbu). cbn [bind].
    destruct (k2_vec B b Hb s Rplus _ _ _ _ D0 D1) as (bl & -> & Hbl). cbn [bind].
    eexists _, _. split; [reflexivity|]. split; [reflexivity|]. cbn [sp_mode sp_dc]. apply extract_rel. rewrite Em. split; intros _.
    + unfold aff_rel, add_full; cbn [f_x f_wu f_bu f_wl f_bl]. auto.
    + unfold ibp_rel, add_full; cbn [f_uc f_lc]. auto.
  - destruct (En0 eq_refl) as (-> & -> & -> & ->). destruct (En1 eq_refl) as (-> & -> & -> & ->). rewrite Ehn. cbn [bind].
    eexists _, _. split; [reflexivity|]. split; [reflexivity|]. cbn [sp_mode sp_dc]. apply extract_rel. rewrite Em. split; [discriminate|]. intros _.
    unfold ibp_rel, add_full; cbn [f_uc f_lc]. auto.
Qed.
Lemma t_minus_rel : forall mode s T ts, sample D mode B b n s T ts ->
  exists T' ts', t_minus D mode T = Ok T' /\ minus (mk_spec false mode D n) ts = Ok ts' /\ sample D mode B b n s T' ts'.
Proof.
  intros mode s T ts H. unfold t_minus, minus. destruct (fullinputs_rel mode false false s T ts H) as (F & r & -> & -> & [[Ha Hi] _]). cbn [bind].
  eexists _, _. split; [reflexivity|]. split; [reflexivity|]. cbn [sp_mode sp_dc]. apply extract_rel. rewrite has_ibp_false in Hi. split; intros Q.
  - destruct (Ha Q) as (? & ? & ? & ? & ?). unfold aff_rel, minus_full; cbn [f_x f_wu f_bu f_wl f_bl].
    split; [assumption|]. split; [apply (k1_mat B b n s Ropp); assumption|]. split; [apply (k1_vec B b s Ropp); assumption|]. split; [apply (k1_mat B b n s Ropp)|apply (k1_vec B b s Ropp)]; assumption.
  - destruct (Hi Q) as (? & ?). unfold ibp_rel, minus_full; cbn [f_uc f_lc]. split; apply (k1_vec B b s Ropp); assumption.
Qed.
Lemma t_subtract_rel : forall mode s T0 T1 ts0 ts1, sample D mode B b n s T0 ts0 -> sample D mode B b n s T1 ts1 ->
  exists T ts, t_subtract D mode T0 T1 = Ok T /\ subtract (mk_spec false mode D n) ts0 ts1 = Ok ts /\ sample D mode B b n s T ts.
Proof.
  intros mode s T0 T1 ts0 ts1 H0 H1. unfold t_subtract, subtract. destruct (t_minus_rel mode s T1 ts1 H1) as (M & ms & -> & -> & HM). cbn [bind].
  apply t_add_rel; auto.
Qed.

Lemma t_hull_relu_ok : forall ke sl ft s u l U L, (forall a, ft = Some a -> nd_shape a = s) -> SV s u U -> SV s l L ->
  exists q, t_hull_relu ke sl ft u l = Ok q /\
    let hl j := hull_relu ke sl (option_map (fun a => nd_data a j) ft) (U j) (L j) in
    SV s (fst (fst (fst q))) (fun j => h_wu (hl j)) /\ SV s (snd (fst (fst q))) (fun j => h_bu (hl j)) /\
    SV s (snd (fst q)) (fun j => h_wl (hl j)) /\ SV s (snd q) (fun j => h_bl (hl j)).
Proof.
  intros ke sl ft s u l U L Hft HU HL. unfold t_hull_relu.
  kv s. kv s. kv s. kv s. kv s.
  set (wl0 := fun j => match sl with
      | V_SLOPE => 1 - - Rclip (Rsgn (U j + L j) - 1) (-1) 0
      | A_SLOPE => Rclip (Rsgn ((Rrelu (U j) - Rrelu (L j)) / Rmax ke (U j - L j) - 1/2)) 0 1
      | Z_SLOPE => 0 * ((Rrelu (U j) - Rrelu (L j)) / Rmax ke (U j - L j))
      | O_SLOPE => 0 * ((Rrelu (U j) - Rrelu (L j)) / Rmax ke (U j - L j)) + 1
      | S_SLOPE => (Rrelu (U j) - Rrelu (L j)) / Rmax ke (U j - L j) end).
  match goal with |- exists r, bind ?m _ = _ /\ _ => assert (W0 : exists t, m = Ok t /\ SV s t wl0) end.
  { destruct sl.
    - destruct (k2_vec B b Hb s Rplus u l U L HU HL) as (a & -> & Ha). cbn [bind]. eexists; split; [reflexivity|].
      apply (k1_vec B b s (fun v => 1 - v)). apply (k1_vec B b s (fun v => - Rclip (Rsgn v - 1) (-1) 0)). exact Ha.
    - eexists; split; [reflexivity|]. apply (k1_vec B b s (fun v => Rclip (Rsgn (v - 1/2)) 0 1)). eassumption.
    - eexists; split; [reflexivity|]. assumption.
    - eexists; split; [reflexivity|]. apply (k1_vec B b s (fun v => 0 * v)). eassumption.
    - eexists; split; [reflexivity|]. apply (k1_vec B b s (fun v => 0 * v + 1)). eassumption. }
  destruct W0 as (w0 & -> & W0). cbn [bind].
  set (wl1 := fun j => let g := match option_map (fun a => nd_data a j) ft with Some g => g | None => 1 end in g * wl0 j + (1 - g) * (1 - wl0 j)).
  match goal with |- exists r, bind ?m _ = _ /\ _ => assert (W1 : exists t, m = Ok t /\ SV s t wl1) end.
  { destruct ft as [a|].
    - pose proof (Hft a eq_refl) as Ea. cbv zeta.
      assert (E0 : exists r, k2 Rmult (k_expand a 0) w0 = Ok r /\ SV s r (fun j => nd_data a j * wl0 j)).
      { destruct (k2_gamma B b Hb s Rmult (fun x => x) a w0 wl0 Ea W0) as (r & Er & Hr). exists r. split; [|exact Hr]. rewrite <- Er. f_equal. }
      destruct E0 as (p & -> & Hp). cbn [bind].
      destruct (k2_gamma B b Hb s Rmult (fun x => 1 - x) a (k1 (fun x => 1 - x) w0) _ Ea (k1_vec B b s (fun x => 1 - x) w0 wl0 W0)) as (q & -> & Hq). cbn [bind].
      destruct (k2_vec B b Hb s Rplus p q _ _ Hp Hq) as (r & -> & Hr). exists r. split; [reflexivity|exact Hr].
    - eexists; split; [reflexivity|]. apply (k1_vec B b s (fun v => 1 * v + (1 - 1) * (1 - v))). exact W0. }
  destruct W1 as (w1 & -> & W1). cbn [bind].
  kv s. kv s. kv s. kv s. kv s. kv s. kv s. kv s. kv s. kv s.
  eexists. split; [reflexivity|]. cbv zeta. cbn [fst snd].
  assert (Ehl : forall j, hull_relu ke sl (option_map (fun a => nd_data a j) ft) (U j) (L j) =
     mk_hull ((1 - index_linear (L j)) * ((1 - index_dead (U j)) * ((Rrelu (U j) - Rrelu (L j)) / Rmax ke (U j - L j))) + index_linear (L j))
             ((1 - index_linear (L j)) * ((1 - index_dead (U j)) * (Rrelu (L j) - (Rrelu (U j) - Rrelu (L j)) / Rmax ke (U j - L j) * L j)))
             ((1 - index_linear (L j)) * ((1 - index_dead (U j)) * wl1 j) + index_linear (L j))
             ((1 - index_linear (L j)) * ((1 - index_dead (U j)) * (0 * (Rrelu (L j) - (Rrelu (U j) - Rrelu (L j)) / Rmax ke (U j - L j) * L j))))).
  { intros j. unfold wl1, wl0, hull_relu. destruct sl; reflexivity. }
  split; [|split; [|split]]; (eapply vec_ext; [|eassumption]); intros j Hj; rewrite Ehl; reflexivity.
Qed.

Lemma t_relu_rel : forall ke mode sl ft s T ts, (forall a, ft = Some a -> nd_shape a = s) -> sample D mode B b n s T ts ->
  exists T' ts', t_relu ke D mode sl ft T = Ok T' /\ relu_ ke (mk_spec false mode D n) sl (option_map nd_data ft) ts = Ok ts' /\ sample D mode B b n s T' ts'.
Proof.
  intros ke mode sl ft s T ts Hft H. unfold t_relu, relu_. destruct (fullinputs_rel mode true true s T ts H) as (F & r & -> & -> & [[Ha Hi] _]). cbn [bind].
  rewrite has_ibp_true in Hi. destruct (Hi eq_refl) as [HU HL]. destruct (get_affine mode) eqn:Em.
  - destruct (t_hull_relu_ok ke sl ft s _ _ _ _ Hft HU HL) as (q & -> & Hq). cbn [bind]. destruct q as [[[wu bu] wl] bl]. cbn [fst snd] in Hq. destruct Hq as (Q1 & Q2 & Q3 & Q4).
    destruct (Ha eq_refl) as (HX & A1 & A2 & A3 & A4).
    destruct (k2_vec B b Hb s Rmult _ _ _ _ Q1 A2) as (p1 & -> & P1). cbn [bind].
    destruct (k2_vec B b Hb s Rplus _ _ _ _ P1 Q2) as (p2 & -> & P2). cbn [bind].
    destruct (k2_vec B b Hb s Rmult _ _ _ _ Q3 A4) as (p3 & -> & P3). cbn [bind].
    destruct (k2_vec B b Hb s Rplus _ _ _ _ P3 Q4) as (p4 & -> & P4). cbn [bind].
    destruct (k2_col B b Hb n s Rmult _ _ _ _ Q1 A1) as (p5 & -> & P5). cbn [bind].
    destruct (k2_col B b Hb n s Rmult _ _ _ _ Q3 A3) as (p6 & -> & P6). cbn [bind].
    eexists _, _. split; [reflexivity|]. split; [reflexivity|]. cbn [sp_mode sp_dc]. apply extract_rel. rewrite Em.
    assert (Eft : forall j, option_map (fun v : vec => v j) (option_map nd_data ft) = option_map (fun a => nd_data a j) ft) by (intros j; destruct ft; reflexivity).
    split.
    + intros _. unfold aff_rel, relu_full. cbn [sp_dc sp_mode]. rewrite Em. destruct (get_ibp mode); cbn [f_x f_wu f_bu f_wl f_bl];
        (split; [exact HX|]); (split; [eapply mat_ext; [|exact P5]; intros i j _ _; cbn beta; rewrite Eft; reflexivity|]); (split; [eapply vec_ext; [|exact P2]; intros j _; cbn beta; rewrite Eft; reflexivity|]);
        (split; [eapply mat_ext; [|exact P6]; intros i j _ _; cbn beta; rewrite Eft; reflexivity|]); (eapply vec_ext; [|exact P4]; intros j _; cbn beta; rewrite Eft; reflexivity).
    + intros Q. unfold ibp_rel, relu_full. cbn [sp_dc sp_mode]. rewrite Q, Em. cbn [f_uc f_lc]. split; [apply (k1_vec B b s Rrelu _ _ HU)|apply (k1_vec B b s Rrelu _ _ HL)].
  - cbn [bind]. eexists _, _. split; [reflexivity|]. split; [reflexivity|]. cbn [sp_mode sp_dc]. apply extract_rel. rewrite Em. split; [discriminate|].
    intros Q. unfold ibp_rel, relu_full. cbn [sp_dc sp_mode]. rewrite Q, Em. cbn [f_uc f_lc]. split; [apply (k1_vec B b s Rrelu _ _ HU)|apply (k1_vec B b s Rrelu _ _ HL)].
Qed.
Lemma t_maximum_rel : forall ke mode s T0 T1 ts0 ts1, sample D mode B b n s T0 ts0 -> sample D mode B b n s T1 ts1 ->
  exists T ts, t_maximum ke D mode T0 T1 = Ok T /\ maximum ke (mk_spec false mode D n) None ts0 ts1 = Ok ts /\ sample D mode B b n s T ts.
Proof.
  intros ke mode s T0 T1 ts0 ts1 H0 H1. unfold t_maximum, maximum.
  destruct (t_subtract_rel mode s T1 T0 ts1 ts0 H1 H0) as (O & os & -> & -> & HO). cbn [bind].
  destruct (t_relu_rel ke mode V_SLOPE None s O os ltac:(discriminate) HO) as (P & ps & -> & EP & HP). change (option_map nd_data None) with (@None vec) in EP. rewrite EP. cbn [bind].
  apply t_add_rel; auto.
Qed.

(** ** layers *)
Lemma t_dense_rel : forall mode pre d u kernel bias T ts, (0 < u)%nat -> nd_shape kernel = [d; u] -> (forall a, bias = Some a -> nd_shape a = [u]) ->
  sample D mode B b n (pre ++ [d]) T ts ->
  exists T' ts', t_dense D mode kernel bias T = Ok T' /\
    decomon_dense (mk_spec false mode D n) d u (fun c j => nd_data kernel (c * u + j)%nat) (option_map nd_data bias) false None ts = Ok ts' /\
    sample D mode B b n (pre ++ [u]) T' ts'.
Proof.
  intros mode pre d u kernel bias T ts Hu Ek Eb H. unfold t_dense, decomon_dense.
  change (get_fullinputs_r false (mk_spec false mode D n) false true ts) with (get_fullinputs (mk_spec false mode D n) false true ts).
  destruct (fullinputs_rel mode false true (pre ++ [d]) T ts H) as (F & r & -> & -> & [[Ha Hi] _]). cbn [bind]. rewrite has_ibp_false in Hi.
  set (K := fun c j => nd_data kernel (c * u + j)%nat).
  assert (TV : forall t0 t1 (v0 v1 : vec), SV (pre ++ [d]) t0 v0 -> SV (pre ++ [d]) t1 v1 ->
    exists t, (p <- k_dot t0 (k1 (fun v => Rmax 0 v) kernel) ; q <- k_dot t1 (k1 (fun v => Rmin 0 v) kernel) ; k2 Rplus p q) = Ok t /\
      SV (pre ++ [u]) t (tadd (kdot d u (kpos K) (vt v0)) (kdot d u (kneg K) (vt v1)) 0%nat)).
  { intros t0 t1 v0 v1 H0 H1. destruct (k_dot_vec B b Hb pre d u t0 (k1 (fun v => Rmax 0 v) kernel) v0 Hu Ek H0) as (p & -> & Hp). cbn [bind].
    destruct (k_dot_vec B b Hb pre d u t1 (k1 (fun v => Rmin 0 v) kernel) v1 Hu Ek H1) as (q & -> & Hq). cbn [bind].
    destruct (k2_vec B b Hb _ Rplus p q _ _ Hp Hq) as (t & -> & Ht). exists t. split; [reflexivity|exact Ht]. }
  assert (TM : forall t0 t1 (v0 v1 : mat), SM (pre ++ [d]) t0 v0 -> SM (pre ++ [d]) t1 v1 ->
    exists t, (p <- k_dot t0 (k1 (fun v => Rmax 0 v) kernel) ; q <- k_dot t1 (k1 (fun v => Rmin 0 v) kernel) ; k2 Rplus p q) = Ok t /\
      SM (pre ++ [u]) t (tadd (kdot d u (kpos K) v0) (kdot d u (kneg K) v1))).
  { intros t0 t1 v0 v1 H0 H1. destruct (k_dot_mat B b Hb n pre d u t0 (k1 (fun v => Rmax 0 v) kernel) v0 Hu Ek H0) as (p & -> & Hp). cbn [bind].
    destruct (k_dot_mat B b Hb n pre d u t1 (k1 (fun v => Rmin 0 v) kernel) v1 Hu Ek H1) as (q & -> & Hq). cbn [bind].
    destruct (k2_mat B b Hb n _ Rplus p q _ _ Hp Hq) as (t & -> & Ht). exists t. split; [reflexivity|exact Ht]. }
  assert (AB : forall t (v : tensor), SV (pre ++ [u]) t (v 0%nat) ->
    exists t', match bias with Some c => k2 Rplus t c | None => Ok t end = Ok t' /\
      SV (pre ++ [u]) t' (match option_map nd_data bias with Some c => tbias (tile u c) v 0%nat | None => v 0%nat end)).
  { intros t v Ht. destruct bias as [c|]; cbn [option_map].
    - destruct (k2_bias B b Hb pre u Rplus t c _ Ht (Eb c eq_refl)) as (t' & -> & Ht'). exists t'. split; [reflexivity|exact Ht'].
    - exists t. split; [reflexivity|exact Ht]. }
  cbv zeta.
  assert (I : exists tu tl, t_when (get_ibp mode) (p <- k_dot (f_uc F) (k1 (fun v => Rmax 0 v) kernel) ; q <- k_dot (f_lc F) (k1 (fun v => Rmin 0 v) kernel) ; k2 Rplus p q) = Ok tu /\
      t_when (get_ibp mode) (p <- k_dot (f_lc F) (k1 (fun v => Rmax 0 v) kernel) ; q <- k_dot (f_uc F) (k1 (fun v => Rmin 0 v) kernel) ; k2 Rplus p q) = Ok tl /\
      exists tu' tl', t_when (get_ibp mode) (match bias with Some c => k2 Rplus tu c | None => Ok tu end) = Ok tu' /\
        t_when (get_ibp mode) (match bias with Some c => k2 Rplus tl c | None => Ok tl end) = Ok tl' /\
      (get_ibp mode = true ->
        SV (pre ++ [u]) tu' (match option_map nd_data bias with Some c => tbias (tile u c) (tadd (kdot d u (kpos K) (f_uc r)) (kdot d u (kneg K) (f_lc r))) 0%nat | None => tadd (kdot d u (kpos K) (f_uc r)) (kdot d u (kneg K) (f_lc r)) 0%nat end) /\
        SV (pre ++ [u]) tl' (match option_map nd_data bias with Some c => tbias (tile u c) (tadd (kdot d u (kpos K) (f_lc r)) (kdot d u (kneg K) (f_uc r))) 0%nat | None => tadd (kdot d u (kpos K) (f_lc r)) (kdot d u (kneg K) (f_uc r)) 0%nat end))).
  { destruct (get_ibp mode); cbn [t_when]; [|exists none_nd, none_nd; split; [reflexivity|]; split; [reflexivity|]; exists none_nd, none_nd; split; [reflexivity|]; split; [reflexivity|discriminate]].
    destruct (Hi eq_refl) as [U L]. destruct (TV _ _ _ _ U L) as (tu & Eu & Hu'). destruct (TV _ _ _ _ L U) as (tl & El & Hl').
    exists tu, tl. split; [exact Eu|]. split; [exact El|].
    destruct (AB tu (tadd (kdot d u (kpos K) (f_uc r)) (kdot d u (kneg K) (f_lc r))) Hu') as (a & Ea & Ha'). destruct (AB tl (tadd (kdot d u (kpos K) (f_lc r)) (kdot d u (kneg K) (f_uc r))) Hl') as (c & Ec & Hc).
    exists a, c. split; [exact Ea|]. split; [exact Ec|]. intros _. split; [exact Ha'|exact Hc]. }
  destruct I as (tu & tl & -> & -> & tu' & tl' & Eu' & El' & HI). cbn [bind].
  destruct (get_affine mode) eqn:Em; cbn [negb].
  - destruct (Ha eq_refl) as (HX & A1 & A2 & A3 & A4).
    rewrite (rank_mat _ _ _ _ _ _ A1), (rank_vec _ _ _ _ _ A2).
    assert (En : Nat.eqb (S (S (length (pre ++ [d])))) (S (length (pre ++ [d]))) = false) by (apply Nat.eqb_neq; lia). rewrite En. clear En.
    destruct (TV _ _ _ _ A2 A4) as (b0 & -> & Hb0). cbn [bind]. destruct (TV _ _ _ _ A4 A2) as (b1 & -> & Hb1). cbn [bind].
    destruct (TM _ _ _ _ A1 A3) as (w0 & -> & Hw0). cbn [bind]. destruct (TM _ _ _ _ A3 A1) as (w1 & -> & Hw1). cbn [bind].
    rewrite Eu', El'. cbn [bind t_when].
    destruct (AB b0 (tadd (kdot d u (kpos K) (f_bu r)) (kdot d u (kneg K) (f_bl r))) Hb0) as (b0' & -> & Hb0'). cbn [bind].
    destruct (AB b1 (tadd (kdot d u (kpos K) (f_bl r)) (kdot d u (kneg K) (f_bu r))) Hb1) as (b1' & -> & Hb1'). cbn [bind].
    unfold dense_full. cbn [sp_mode sp_dc is_some]. rewrite Em. cbn [andb negb].
    destruct bias as [c|]; cbn [option_map is_some andb] in *; (eexists _, _; split; [reflexivity|]; split; [reflexivity|]; apply extract_rel; rewrite Em; split; intros Q;
      [unfold aff_rel; cbn [f_x f_wu f_bu f_wl f_bl when]; auto|unfold ibp_rel; rewrite Q in *; cbn [f_uc f_lc when]; apply HI; reflexivity]).
  - cbn [bind]. rewrite Eu', El'. cbn [bind t_when]. unfold dense_full. cbn [sp_mode sp_dc is_some]. rewrite Em. cbn [andb negb].
    destruct bias as [c|]; cbn [option_map is_some andb] in *; (eexists _, _; split; [reflexivity|]; split; [reflexivity|]; apply extract_rel; rewrite Em; split; [discriminate|]; intros Q;
      unfold ibp_rel; rewrite Q in *; cbn [f_uc f_lc when]; apply HI; reflexivity).
Qed.

Lemma last_dom : forall x X, sample_dom D B b n x X -> last (nd_shape x) O = n.
Proof. intros x X H. destruct D; cbn [sample_dom] in H; destruct H as [E _]; rewrite E; reflexivity. Qed.
Lemma t_flatten_rel : forall mode s ch size T ts, (0 < prodn s)%nat -> sample D mode B b n s T ts ->
  exists T' ts', t_flatten D mode T = Ok T' /\ decomon_flatten (mk_spec false mode D n) false ch size ts = Ok ts' /\ sample D mode B b n [prodn s] T' ts'.
Proof.
  intros mode s ch size T ts Hs H. unfold t_flatten, decomon_flatten.
  destruct (fullinputs_rel mode false true s T ts H) as (F & r & -> & -> & [[Ha Hi] _]). cbn [bind]. rewrite has_ibp_false in Hi. cbv zeta. cbn [sp_mode sp_dc].
  assert (V : forall t v, SV s t v -> exists r, k_reshape t [prodn (tl (nd_shape t))] = Ok r /\ SV [prodn s] r v).
  { intros t v Ht. pose proof Ht as [E _]. rewrite E. cbn [tl]. apply (k_reshape_vec B b Hb s); auto. cbn [prodn]. lia. }
  assert (I : exists tu tl, t_when (get_ibp mode) (k_reshape (f_uc F) [prodn (List.tl (nd_shape (f_uc F)))]) = Ok tu /\
     t_when (get_ibp mode) (k_reshape (f_lc F) [prodn (List.tl (nd_shape (f_lc F)))]) = Ok tl /\
     (get_ibp mode = true -> SV [prodn s] tu (f_uc r 0%nat) /\ SV [prodn s] tl (f_lc r 0%nat))).
  { destruct (get_ibp mode); cbn [t_when]; [|exists none_nd, none_nd; split; [reflexivity|]; split; [reflexivity|discriminate]].
    destruct (Hi eq_refl) as [U L]. destruct (V _ _ U) as (a & Ea & Hau). destruct (V _ _ L) as (c & Ec & Hc). exists a, c. auto. }
  destruct I as (tu & tl & -> & -> & HI). cbn [bind]. destruct (get_affine mode) eqn:Em; cbn [t_when].
  - destruct (Ha eq_refl) as (HX & A1 & A2 & A3 & A4). rewrite (last_dom _ _ HX).
    destruct (V _ _ A2) as (b0 & -> & Hb0). cbn [bind]. destruct (V _ _ A4) as (b1 & -> & Hb1). cbn [bind].
    pose proof Hb0 as [Eb0 _]. rewrite Eb0. cbn [List.tl prodn]. rewrite Nat.mul_1_r.
    destruct (k_reshape_mat B b Hb n s [prodn s] _ _ ltac:(cbn [prodn]; lia) Hs Hn A1) as (w0 & -> & Hw0). cbn [bind].
    destruct (k_reshape_mat B b Hb n s [prodn s] _ _ ltac:(cbn [prodn]; lia) Hs Hn A3) as (w1 & -> & Hw1). cbn [bind].
    eexists _, _. split; [reflexivity|]. split; [reflexivity|]. apply extract_rel. rewrite Em. split; intros Q.
    + unfold aff_rel, move_full. cbn [sp_mode]. rewrite Em. cbn [f_x f_wu f_bu f_wl f_bl when]. auto.
    + unfold ibp_rel, move_full. cbn [sp_mode]. rewrite Q. cbn [f_uc f_lc when]. apply HI; exact Q.
  - cbn [bind]. eexists _, _. split; [reflexivity|]. split; [reflexivity|]. apply extract_rel. rewrite Em. split; [discriminate|]. intros Q.
    unfold ibp_rel, move_full. cbn [sp_mode]. rewrite Q. cbn [f_uc f_lc when]. apply HI; exact Q.
Qed.
Lemma t_reshape_rel : forall mode s target T ts, (0 < prodn s)%nat -> prodn target = prodn s -> sample D mode B b n s T ts ->
  exists T' ts', t_reshape D mode target T = Ok T' /\ decomon_reshape (mk_spec false mode D n) ts = Ok ts' /\ sample D mode B b n target T' ts'.
Proof.
  intros mode s target T ts Hs Et H. unfold t_reshape, decomon_reshape.
  destruct (fullinputs_rel mode false true s T ts H) as (F & r & -> & -> & [[Ha Hi] _]). cbn [bind]. rewrite has_ibp_false in Hi. cbv zeta. cbn [sp_mode sp_dc].
  assert (V : forall t v, SV s t v -> exists r, k_reshape t target = Ok r /\ SV target r v) by (intros t v Ht; apply (k_reshape_vec B b Hb s); auto).
  assert (I : exists tu tl, t_when (get_ibp mode) (k_reshape (f_uc F) target) = Ok tu /\ t_when (get_ibp mode) (k_reshape (f_lc F) target) = Ok tl /\
     (get_ibp mode = true -> SV target tu (f_uc r 0%nat) /\ SV target tl (f_lc r 0%nat))).
  { destruct (get_ibp mode); cbn [t_when]; [|exists none_nd, none_nd; split; [reflexivity|]; split; [reflexivity|discriminate]].
    destruct (Hi eq_refl) as [U L]. destruct (V _ _ U) as (a & Ea & Hau). destruct (V _ _ L) as (c & Ec & Hc). exists a, c. auto. }
  destruct I as (tu & tl & -> & -> & HI). cbn [bind]. destruct (get_affine mode) eqn:Em; cbn [t_when].
  - destruct (Ha eq_refl) as (HX & A1 & A2 & A3 & A4).
    destruct (V _ _ A2) as (b0 & -> & Hb0). cbn [bind]. destruct (V _ _ A4) as (b1 & -> & Hb1). cbn [bind].
    rewrite (rank_mat _ _ _ _ _ _ A1), (rank_vec _ _ _ _ _ A2).
    assert (En : Nat.eqb (S (S (length s))) (S (length s)) = false) by (apply Nat.eqb_neq; lia). rewrite En. clear En.
    destruct (k_rnn_mat B b Hb n s target (fun t => k_reshape t target) _ _ Hn V A1) as (w0 & -> & Hw0). cbn [bind].
    destruct (k_rnn_mat B b Hb n s target (fun t => k_reshape t target) _ _ Hn V A3) as (w1 & -> & Hw1). cbn [bind].
    eexists _, _. split; [reflexivity|]. split; [reflexivity|]. apply extract_rel. rewrite Em. split; intros Q.
    + unfold aff_rel, move_full. cbn [sp_mode]. rewrite Em. cbn [f_x f_wu f_bu f_wl f_bl when]. auto.
    + unfold ibp_rel, move_full. cbn [sp_mode]. rewrite Q. cbn [f_uc f_lc when]. apply HI; exact Q.
  - cbn [bind]. eexists _, _. split; [reflexivity|]. split; [reflexivity|]. apply extract_rel. rewrite Em. split; [discriminate|]. intros Q.
    unfold ibp_rel, move_full. cbn [sp_mode]. rewrite Q. cbn [f_uc f_lc when]. apply HI; exact Q.
Qed.
End Layers.
