(** Merge layers, input tensors, conversions and whole networks on a batch, sample by sample. *)
From Coq Require Import Reals List Arith Bool Lia Lra.
From Verif Require Import RLib Spec M_Core M_Utils M_MergeLayers M_Ops M_Layers Spec_Backward M_Backward M_Convert M_Network Spec_Network Spec_Batch M_Batch P_Core P_Merge P_Graph P_Axis P_Batch P_BatchLayers P_BatchBN.
Import ListNotations.
Local Open Scope R_scope.

Lemma nth_error_eq : forall A (l l' : list A), (forall i, nth_error l i = nth_error l' i) -> l = l'.
Proof.
  intros A. induction l as [|a l IH]; intros [|c l'] H; [reflexivity|discriminate (H O)|discriminate (H O)|].
  pose proof (H O) as E. cbn in E. injection E; intros <-. f_equal. apply IH. intros i. exact (H (S i)).
Qed.
Lemma F2_len : forall A C (P : A -> C -> Prop) l l', Forall2 P l l' -> length l = length l'.
Proof. induction 1; cbn [length]; congruence. Qed.
Lemma F2_map : forall A A' C C' (P : A -> C -> Prop) (Q : A' -> C' -> Prop) (f : A -> A') (g : C -> C') l l',
  (forall a c, P a c -> Q (f a) (g c)) -> Forall2 P l l' -> Forall2 Q (map f l) (map g l').
Proof. intros A A' C C' P Q f g l l' H. induction 1; cbn [map]; constructor; auto. Qed.
Lemma sample_length : forall D mode B b n s T ts, sample D mode B b n s T ts -> length T = nb_tensors mode false /\ length ts = nb_tensors mode false.
Proof.
  intros D mode B b n s T ts H. unfold sample in H.
  assert (G : forall (ks : list kind) (P : kind -> nd -> tensor -> Prop) T ts, Forall3 P ks T ts -> length T = length ks /\ length ts = length ks).
  { induction 1 as [|k t u ks T' ts' _ _ [I1 I2]]; cbn [length]; auto. }
  destruct (G _ _ _ _ H) as [-> ->]. destruct mode; split; reflexivity.
Qed.

Section Net.
Variables (D : domain) (B b n : nat).
Hypothesis Hb : (b < B)%nat.
Hypothesis Hn : (0 < n)%nat.
Hypothesis HD : norm_ok D.
Notation SV := (sample_vec B b).
Notation SM := (sample_mat B b n).
Notation sp mode := (mk_spec false mode D n).

Lemma samples_split : forall mode s Ts tss, Forall2 (sample D mode B b n s) Ts tss ->
  split_to_merge (nb_tensors mode false) (concat Ts) = Ts /\ split_to_merge (nb_tensors mode false) (concat tss) = tss.
Proof.
  intros mode s Ts tss H. assert (0 < nb_tensors mode false)%nat by (destruct mode; cbn; lia).
  split; apply split_to_merge_concat; auto; intros l Hl; apply In_nth_error in Hl; destruct Hl as [i Hi].
  - revert i Hi. induction H as [|T ts Ts' tss' H1 H2 IH]; intros [|i] Hi; try discriminate Hi; [|apply (IH i Hi)].
    injection Hi; intros <-. apply (sample_length _ _ _ _ _ _ _ _ H1).
  - revert i Hi. induction H as [|T ts Ts' tss' H1 H2 IH]; intros [|i] Hi; try discriminate Hi; [|apply (IH i Hi)].
    injection Hi; intros <-. apply (sample_length _ _ _ _ _ _ _ _ H1).
Qed.

(** ** sums *)
Section Sum.
Variable Rel : nd -> tensor -> Prop.
Hypothesis Rel_k1 : forall f t u, Rel t u -> Rel (k1 f t) (fun i j => f (u i j)).
Hypothesis Rel_k2 : forall a c u v, Rel a u -> Rel c v -> exists r, k2 Rplus a c = Ok r /\ Rel r (fun i j => u i j + v i j).
Lemma t_sum_fold : forall q us a u, Rel a u -> Forall2 Rel q us ->
  exists r, foldR (fun acc x => k2 Rplus acc x) q a = Ok r /\ Rel r (fold_left (fun (acc t : tensor) => fun i j => acc i j + t i j) us u).
Proof.
  intros q us a u Ha H. revert a u Ha. induction H as [|x y q us H1 _ IH]; intros a u Ha; [exists a; split; [reflexivity|exact Ha]|].
  cbn [foldR fold_left]. destruct (Rel_k2 _ _ _ _ Ha H1) as (r & -> & Hr). cbn [bind]. apply IH; exact Hr.
Qed.
Lemma t_sum_ok : forall l us, l <> [] -> Forall2 Rel l us -> exists r, t_sum l = Ok r /\ Rel r (sum_t us).
Proof.
  intros l us Hl H. destruct H as [|t u q us H1 H2]; [congruence|]. unfold t_sum, sum_t. cbn [fold_left].
  apply t_sum_fold; [|exact H2]. exact (Rel_k1 (fun v => 0 + v) t u H1).
Qed.
Lemma t_avg_ok : forall l us, l <> [] -> Forall2 Rel l us -> exists r, t_avg l = Ok r /\ Rel r (avg_t us).
Proof.
  intros l us Hl H. unfold t_avg. destruct (t_sum_ok l us Hl H) as (r & -> & Hr). cbn [bind]. eexists; split; [reflexivity|].
  unfold avg_t. rewrite <- (F2_len _ _ _ _ _ H). exact (Rel_k1 (fun v => v / INR (length l)) r _ Hr).
Qed.
End Sum.

(** what the two reductions do on the entries of one kind *)
Definition reduces (top : list nd -> result nd) (op : list tensor -> tensor) : Prop :=
  forall Rel : nd -> tensor -> Prop,
    (forall f t u, Rel t u -> Rel (k1 f t) (fun i j => f (u i j))) ->
    (forall a c u v, Rel a u -> Rel c v -> exists r, k2 Rplus a c = Ok r /\ Rel r (fun i j => u i j + v i j)) ->
    forall l us, l <> [] -> Forall2 Rel l us -> exists r, top l = Ok r /\ Rel r (op us).

Lemma fulls_rel : forall mode s Ts tss, Forall2 (sample D mode B b n s) Ts tss ->
  exists Fs rs, mapR (t_fullinputs D mode false true) Ts = Ok Fs /\ Forall2 (in_rel D B b n (get_ibp mode) (get_affine mode) s) Fs rs /\
    Forall2 (fun ts r => get_fullinputs (sp mode) false true ts = Ok r) tss rs.
Proof.
  intros mode s Ts tss H. induction H as [|T ts Ts tss H1 _ (Fs & rs & E & HF & Hr)]; [exists [], []; split; [reflexivity|split; constructor]|].
  destruct (fullinputs_rel D B b n Hb Hn HD mode false true s T ts H1) as (F & r & EF & Er & HR). rewrite has_ibp_false in HR.
  exists (F :: Fs), (r :: rs). cbn [mapR]. rewrite EF. cbn [bind]. rewrite E. cbn [bind]. split; [reflexivity|]. split; constructor; auto.
Qed.
Lemma merge_rel : forall mode s top op Ts tss, reduces top op -> Ts <> [] -> Forall2 (sample D mode B b n s) Ts tss ->
  exists T' ts', t_merge D mode top (concat Ts) = Ok T' /\ merge_reduce (sp mode) op op (concat tss) = Ok ts' /\ sample D mode B b n s T' ts'.
Proof.
  intros mode s top op Ts tss Hred HT H. destruct (samples_split mode s Ts tss H) as [Es _]. unfold t_merge. rewrite Es.
  destruct (fulls_rel mode s Ts tss H) as (Fs & rs & -> & HF & Hr). cbn [bind].
  assert (Hlen : forall l, In l tss -> length l = spec_nb mode false).
  { intros l Hl. rewrite <- nb_tensors_spec. apply In_nth_error in Hl. destruct Hl as [i Hi]. clear -H Hi. revert i Hi.
    induction H as [|T ts Ts tss H1 _ IH]; intros [|i] Hi; try discriminate Hi; [|apply (IH i Hi)]. injection Hi; intros <-. apply (sample_length _ _ _ _ _ _ _ _ H1). }
  destruct (merge_by_type_ok (sp mode) false true tss HD Hlen ltac:(reflexivity)) as (R & ER & HL & Hrow).
  assert (Erow : forall i, nth_error (f_x R) i = nth_error (map f_x rs) i /\ nth_error (f_uc R) i = nth_error (map f_uc rs) i /\
     nth_error (f_wu R) i = nth_error (map f_wu rs) i /\ nth_error (f_bu R) i = nth_error (map f_bu rs) i /\ nth_error (f_lc R) i = nth_error (map f_lc rs) i /\
     nth_error (f_wl R) i = nth_error (map f_wl rs) i /\ nth_error (f_bl R) i = nth_error (map f_bl rs) i).
  { intros i. rewrite !nth_error_map. pose proof (F2_len _ _ _ _ _ Hr) as Elen. destruct HL as (L1 & L2 & L3 & L4 & L5 & L6 & L7 & _).
    destruct (nth_error tss i) as [l|] eqn:Ei.
    - destruct (Hrow i l Ei) as (r & Er & (R1 & R2 & R3 & R4 & R5 & R6 & R7 & _)).
      assert (E : nth_error rs i = Some r).
      { clear -Hr Ei Er. revert i Ei. induction Hr as [|ts r' tss rs H1 _ IH]; intros [|i] Ei; try discriminate Ei; [|apply (IH i Ei)].
        injection Ei; intros ->. cbn. congruence. }
      rewrite E. cbn [option_map]. auto 10.
    - apply nth_error_None in Ei. assert (E : nth_error rs i = None) by (apply nth_error_None; lia). rewrite E. cbn [option_map].
      repeat split; apply nth_error_None; lia. }
  assert (EX : f_x R = map f_x rs) by (apply nth_error_eq; intros i; apply (Erow i)).
  assert (EU : f_uc R = map f_uc rs) by (apply nth_error_eq; intros i; apply (Erow i)).
  assert (EWU : f_wu R = map f_wu rs) by (apply nth_error_eq; intros i; apply (Erow i)).
  assert (EBU : f_bu R = map f_bu rs) by (apply nth_error_eq; intros i; apply (Erow i)).
  assert (EL : f_lc R = map f_lc rs) by (apply nth_error_eq; intros i; apply (Erow i)).
  assert (EWL : f_wl R = map f_wl rs) by (apply nth_error_eq; intros i; apply (Erow i)).
  assert (EBL : f_bl R = map f_bl rs) by (apply nth_error_eq; intros i; apply (Erow i)).
  unfold merge_reduce. rewrite ER. cbn [bind]. rewrite EX, EU, EWU, EBU, EL, EWL, EBL.
  destruct Fs as [|F Fs]; [exfalso; apply HT; destruct H; [reflexivity|]; inversion Hr; subst; inversion HF|].
  destruct rs as [|r rs]; [inversion HF|].
  assert (HFr : in_rel D B b n (get_ibp mode) (get_affine mode) s F r) by (inversion HF; assumption).
  cbn [map sp_mode sp_dc]. change (f_uc r :: map f_uc rs) with (map f_uc (r :: rs)). change (f_lc r :: map f_lc rs) with (map f_lc (r :: rs)).
  change (f_wu r :: map f_wu rs) with (map f_wu (r :: rs)). change (f_wl r :: map f_wl rs) with (map f_wl (r :: rs)).
  change (f_bu r :: map f_bu rs) with (map f_bu (r :: rs)). change (f_bl r :: map f_bl rs) with (map f_bl (r :: rs)).
  change (f_uc F :: map f_uc Fs) with (map f_uc (F :: Fs)). change (f_lc F :: map f_lc Fs) with (map f_lc (F :: Fs)).
  change (f_wu F :: map f_wu Fs) with (map f_wu (F :: Fs)). change (f_wl F :: map f_wl Fs) with (map f_wl (F :: Fs)).
  change (f_bu F :: map f_bu Fs) with (map f_bu (F :: Fs)). change (f_bl F :: map f_bl Fs) with (map f_bl (F :: Fs)).
  clear Erow EX EU EWU EBU EL EWL EBL ER HL Hrow Hlen.
  assert (V : forall (fF : full nd -> nd) (fr : full tensor -> tensor), (forall F r, in_rel D B b n (get_ibp mode) (get_affine mode) s F r -> SV s (fF F) (fr r 0%nat)) ->
    exists t, top (map fF (F :: Fs)) = Ok t /\ SV s t (op (map fr (r :: rs)) 0%nat)).
  { intros fF fr Hf. apply (Hred (fun t u => SV s t (u 0%nat))); [intros f t u; apply (k1_vec B b s f)|intros a c u v; apply (k2_vec B b Hb s Rplus)|discriminate|].
    exact (F2_map _ _ _ _ _ _ fF fr _ _ Hf HF). }
  assert (M : forall (fF : full nd -> nd) (fr : full tensor -> tensor), (forall F r, in_rel D B b n (get_ibp mode) (get_affine mode) s F r -> SM s (fF F) (fr r)) ->
    exists t, top (map fF (F :: Fs)) = Ok t /\ SM s t (op (map fr (r :: rs)))).
  { intros fF fr Hf. apply (Hred (fun t u => SM s t u)); [intros f t u; apply (k1_mat B b n s f)|intros a c u v; apply (k2_mat B b Hb n s Rplus)|discriminate|].
    exact (F2_map _ _ _ _ _ _ fF fr _ _ Hf HF). }
  assert (I : exists tu tl, t_when (get_ibp mode) (top (map f_uc (F :: Fs))) = Ok tu /\ t_when (get_ibp mode) (top (map f_lc (F :: Fs))) = Ok tl /\
     (get_ibp mode = true -> SV s tu (op (map f_uc (r :: rs)) 0%nat) /\ SV s tl (op (map f_lc (r :: rs)) 0%nat))).
  { destruct (get_ibp mode) eqn:Ei; cbn [t_when]; [|exists none_nd, none_nd; split; [reflexivity|]; split; [reflexivity|discriminate]].
    destruct (V f_uc f_uc) as (a & Ea & Ha); [intros F0 r0 [[_ Q] _]; apply Q; reflexivity|]. destruct (V f_lc f_lc) as (c & Ec & Hc); [intros F0 r0 [[_ Q] _]; apply Q; reflexivity|].
    exists a, c. auto. }
  destruct I as (tu & tl & -> & -> & HI). cbn [bind]. destruct (get_affine mode) eqn:Em; cbn [t_when].
  - destruct (V f_bu f_bu) as (b0 & -> & Hb0); [intros F0 r0 [[Q _] _]; apply Q; reflexivity|]. cbn [bind].
    destruct (V f_bl f_bl) as (b1 & -> & Hb1); [intros F0 r0 [[Q _] _]; apply Q; reflexivity|]. cbn [bind].
    destruct (M f_wu f_wu) as (w0 & -> & Hw0); [intros F0 r0 [[Q _] _]; apply Q; reflexivity|]. cbn [bind].
    destruct (M f_wl f_wl) as (w1 & -> & Hw1); [intros F0 r0 [[Q _] _]; apply Q; reflexivity|]. cbn [bind].
    destruct (get_ibp mode) eqn:Ei; (eexists _, _; split; [reflexivity|]; split; [reflexivity|]; apply extract_rel; rewrite Em, Ei; split; intros Q; try discriminate Q).
    + unfold aff_rel; cbn [f_x f_wu f_bu f_wl f_bl]. split; [apply HFr; reflexivity|auto].
    + unfold ibp_rel; cbn [f_uc f_lc]. apply HI; reflexivity.
    + unfold aff_rel; cbn [f_x f_wu f_bu f_wl f_bl]. split; [apply HFr; reflexivity|auto].
  - cbn [bind]. destruct (get_ibp mode) eqn:Ei; [|destruct mode; discriminate]. eexists _, _. split; [reflexivity|]. split; [reflexivity|]. apply extract_rel; rewrite Em, Ei; split; intros Q; [discriminate Q|].
    unfold ibp_rel; cbn [f_uc f_lc]. apply HI; reflexivity.
Qed.
Lemma sum_reduces : reduces t_sum sum_t.
Proof. intros Rel H1 H2 l us Hl H. apply (t_sum_ok Rel H1 H2); auto. Qed.
Lemma avg_reduces : reduces t_avg avg_t.
Proof. intros Rel H1 H2 l us Hl H. apply (t_avg_ok Rel H1 H2); auto. Qed.

(** ** Subtract, Maximum, Minimum *)
Lemma t_subtract_layer_rel : forall mode s T0 T1 ts0 ts1, sample D mode B b n s T0 ts0 -> sample D mode B b n s T1 ts1 ->
  exists T' ts', t_subtract_layer D mode (concat [T0; T1]) = Ok T' /\ decomon_subtract (sp mode) (concat [ts0; ts1]) = Ok ts' /\ sample D mode B b n s T' ts'.
Proof.
  intros mode s T0 T1 ts0 ts1 H0 H1. destruct (samples_split mode s [T0; T1] [ts0; ts1]) as [E1 E2]; [repeat constructor; auto|].
  unfold t_subtract_layer, decomon_subtract. cbn [sp_mode sp_dc]. rewrite E1, E2. apply t_subtract_rel; auto.
Qed.
Lemma max_fold : forall ke mode s q qs O os, sample D mode B b n s O os -> Forall2 (sample D mode B b n s) q qs ->
  exists T' ts', foldR (t_maximum ke D mode) q O = Ok T' /\ foldR (maximum ke (sp mode) None) qs os = Ok ts' /\ sample D mode B b n s T' ts'.
Proof.
  intros ke mode s q qs O os HO H. revert O os HO. induction H as [|T ts q qs H1 _ IH]; intros O os HO; [exists O, os; auto|]. cbn [foldR].
  destruct (t_maximum_rel D B b n Hb Hn HD ke mode s O T os ts HO H1) as (M & ms & -> & -> & HM). cbn [bind]. apply IH; exact HM.
Qed.
Lemma t_maximum_layer_rel : forall ke mode s Ts tss, Ts <> [] -> Forall2 (sample D mode B b n s) Ts tss ->
  exists T' ts', t_maximum_layer ke D mode (concat Ts) = Ok T' /\ decomon_maximum ke (sp mode) (concat tss) = Ok ts' /\ sample D mode B b n s T' ts'.
Proof.
  intros ke mode s Ts tss HT H. destruct (samples_split mode s Ts tss H) as [E1 E2]. unfold t_maximum_layer, decomon_maximum. cbn [sp_mode sp_dc]. rewrite E1, E2.
  destruct H as [|T0 ts0 Ts tss H0 H]; [congruence|]. destruct H as [|T1 ts1 Ts tss H1 H].
  - eexists _, _. split; [reflexivity|]. split; [reflexivity|]. cbn [concat]. rewrite !app_nil_r. exact H0.
  - destruct (t_maximum_rel D B b n Hb Hn HD ke mode s T0 T1 ts0 ts1 H0 H1) as (M & ms & -> & -> & HM). cbn [bind]. apply (max_fold ke mode s); auto.
Qed.
Lemma minus_all : forall mode s Ts tss, Forall2 (sample D mode B b n s) Ts tss ->
  exists Ms mss, mapR (t_minus D mode) Ts = Ok Ms /\ mapR (minus (sp mode)) tss = Ok mss /\ Forall2 (sample D mode B b n s) Ms mss.
Proof.
  intros mode s Ts tss. induction 1 as [|T ts Ts tss H1 _ (Ms & mss & E1 & E2 & HM)]; [exists [], []; auto|].
  destruct (t_minus_rel D B b n Hb Hn HD mode s T ts H1) as (M & ms & F1 & F2 & HM1). exists (M :: Ms), (ms :: mss). cbn [mapR].
  rewrite F1, F2. cbn [bind]. rewrite E1, E2. cbn [bind]. auto.
Qed.
Lemma t_minimum_layer_rel : forall ke mode s Ts tss, Ts <> [] -> Forall2 (sample D mode B b n s) Ts tss ->
  exists T' ts', t_minimum_layer ke D mode (concat Ts) = Ok T' /\ decomon_minimum ke (sp mode) (concat tss) = Ok ts' /\ sample D mode B b n s T' ts'.
Proof.
  intros ke mode s Ts tss HT H. destruct (samples_split mode s Ts tss H) as [E1 E2]. unfold t_minimum_layer, decomon_minimum. cbn [sp_mode sp_dc]. rewrite E1, E2.
  destruct (minus_all mode s Ts tss H) as (Ms & mss & F1 & F2 & HM). rewrite F1, F2. cbn [bind].
  destruct HM as [|T0 ts0 Ms mss H0 HM].
  - exfalso. apply HT. destruct H; [reflexivity|]. cbn [mapR] in F1. destruct (t_minus D mode x); [|discriminate F1]. cbn [bind] in F1. destruct (mapR (t_minus D mode) l); discriminate F1.
  - destruct HM as [|T1 ts1 Ms mss H1 HM].
    + destruct H as [|A aa Ts tss Ha H]; [congruence|]. destruct H as [|A' aa' Ts tss Ha' H].
      * eexists _, _. split; [reflexivity|]. split; [reflexivity|]. cbn [concat]. rewrite !app_nil_r. exact Ha.
      * exfalso. cbn [mapR] in F1. destruct (t_minus D mode A); [|discriminate F1]. destruct (t_minus D mode A'); [|discriminate F1]. cbn [bind] in F1. destruct (mapR (t_minus D mode) Ts); discriminate F1.
    + destruct (t_maximum_rel D B b n Hb Hn HD ke mode s T0 T1 ts0 ts1 H0 H1) as (M & ms & -> & -> & HM1). cbn [bind].
      destruct (max_fold ke mode s Ms mss M ms HM1 HM) as (M' & ms' & -> & -> & HM'). cbn [bind]. apply t_minus_rel; auto.
Qed.

(** ** every layer *)
Lemma t_layer_rel : forall ke mode L ss s' Ts tss o, tl_ok ss L s' ->
  (match L with TRelu sl ft => lo_slope o = sl /\ lo_ft o = option_map nd_data ft | _ => True end) ->
  Forall3 (fun s T ts => sample D mode B b n s T ts) ss Ts tss ->
  exists T' ts', t_layer ke D mode L (concat Ts) = Ok T' /\ decomon_layer ke (sp mode) o (tl_layer ss L) (concat tss) = Ok ts' /\ sample D mode B b n s' T' ts'.
Proof.
  intros ke mode L ss s' Ts tss o HL Ho H.
  assert (Hone : forall s, ss = [s] -> exists T ts, concat Ts = T /\ concat tss = ts /\ sample D mode B b n s T ts).
  { intros s ->. inversion H as [|? ? ? ? ? ? H1 H2]; subst. inversion H2; subst. eexists _, _. split; [reflexivity|]. split; [reflexivity|].
    cbn [concat]. rewrite !app_nil_r. exact H1. }
  assert (Hall : forall s q, ss = s :: q -> (forall t, In t q -> t = s) -> Ts <> [] /\ Forall2 (sample D mode B b n s) Ts tss).
  { intros s q -> Hq. split; [inversion H; discriminate|]. clear -H Hq.
    assert (Hq' : forall t, In t (s :: q) -> t = s) by (intros t [->|Q]; auto). clear Hq. revert Hq'.
    induction H as [|s0 T ts ss Ts tss H1 _ IH]; intros Hq; constructor; [rewrite <- (Hq s0 (or_introl eq_refl)); exact H1|apply IH; intros; apply Hq; right; auto]. }
  destruct L as [kernel bias|sl ft| | | |target|axis gamma beta mean var eps|dims| | | | |]; destruct ss as [|s ss]; try contradiction HL.
  - destruct ss; [|contradiction HL]. destruct HL as (pre & d & u & -> & -> & Hd & Hu & Ek & Eb).
    destruct (Hone _ eq_refl) as (T & ts & -> & -> & HS). cbn [t_layer tl_layer decomon_layer]. rewrite Ek. cbn [hd tl].
    apply t_dense_rel; auto.
  - destruct ss; [|contradiction HL]. destruct HL as (-> & Hft). destruct Ho as [<- Eo].
    destruct (Hone _ eq_refl) as (T & ts & -> & -> & HS). cbn [t_layer tl_layer decomon_layer decomon_activation]. rewrite Eo. apply t_relu_rel; auto.
  - destruct ss; [|contradiction HL]. rewrite HL. destruct (Hone _ eq_refl) as (T & ts & -> & -> & HS). exists T, ts. auto.
  - destruct ss; [|contradiction HL]. rewrite HL. destruct (Hone _ eq_refl) as (T & ts & -> & -> & HS). exists T, ts. auto.
  - destruct ss; [|contradiction HL]. destruct HL as (-> & Hs). destruct (Hone _ eq_refl) as (T & ts & -> & -> & HS).
    cbn [t_layer tl_layer decomon_layer]. apply t_flatten_rel; auto.
  - destruct ss; [|contradiction HL]. destruct HL as (-> & Et & Hs). destruct (Hone _ eq_refl) as (T & ts & -> & -> & HS).
    cbn [t_layer tl_layer decomon_layer]. apply (t_reshape_rel D B b n Hb Hn HD mode s); auto.
  - destruct ss; [|contradiction HL]. destruct HL as (-> & pre & k & post & -> & Hax & Em & Ev & Eg & Eb & _). destruct (Hone _ eq_refl) as (T & ts & -> & -> & HS).
    rewrite bn_layer_eq by exact Hax. cbn [t_layer decomon_layer]. apply t_bn_rel; auto.
  - destruct ss; [|contradiction HL]. destruct HL as (-> & HP). destruct (Hone _ eq_refl) as (T & ts & -> & -> & HS).
    cbn [t_layer tl_layer decomon_layer hd]. apply t_permute_rel; auto.
  - destruct HL as (-> & Hq). destruct (Hall s ss eq_refl Hq) as [HT HS]. cbn [t_layer tl_layer decomon_layer]. apply (merge_rel mode s); auto using sum_reduces.
  - destruct HL as (-> & Hq). destruct (Hall s ss eq_refl Hq) as [HT HS]. cbn [t_layer tl_layer decomon_layer]. apply (merge_rel mode s); auto using avg_reduces.
  - destruct ss as [|s1 [|? ?]]; try contradiction HL. destruct HL as (-> & <-).
    inversion H as [|? ? ? ? ? ? H1 H2]; subst. inversion H2 as [|? ? ? ? ? ? H3 H4]; subst. inversion H4; subst.
    cbn [t_layer tl_layer decomon_layer]. apply (t_subtract_layer_rel mode s); auto.
  - destruct HL as (-> & Hq). destruct (Hall s ss eq_refl Hq) as [HT HS]. cbn [t_layer tl_layer decomon_layer]. apply (t_maximum_layer_rel ke mode s); auto.
  - destruct HL as (-> & Hq). destruct (Hall s ss eq_refl Hq) as [HT HS]. cbn [t_layer tl_layer decomon_layer]. apply (t_minimum_layer_rel ke mode s); auto.
Qed.

(** ** input tensors *)
Lemma t_input_rel : forall mode z x, sample_dom D B b n z x ->
  exists T ts, t_input_tensors D mode z = Ok T /\ get_input_tensors (Some D) mode n x = Ok ts /\ sample D mode B b n [n] T ts.
Proof.
  intros mode z x Hx. unfold t_input_tensors, get_input_tensors. pose proof Hx as Hz. pose proof HD as HD'. destruct D as [|eps p] eqn:ED; cbn [sample_dom] in Hz.
  - destruct (k_index_mat B b Hb 2%nat [n] z x 0 ltac:(lia) Hz) as (z0 & E0 & H0). destruct (k_index_mat B b Hb 2%nat [n] z x 1 ltac:(lia) Hz) as (z1 & E1 & H1).
    rewrite E0, E1. destruct mode; cbn [get_ibp get_affine t_when bind when];
      (eexists _, _; split; [reflexivity|]; split; [reflexivity|]; apply extract_rel; split; intros Q; try discriminate Q);
      unfold aff_rel, ibp_rel; cbn [f_x f_wu f_bu f_wl f_bl f_uc f_lc];
      pose proof (k_identity_vec B b n z0 _ H0) as HI; pose proof (k1_vec B b [n] (fun _ => 0) z0 _ H0) as HZ; auto 10.
  - assert (Ball_case : exists u l tu tl, get_upper (Ball eps p) n false x id_mat zero_vec no_kw = Ok u /\ get_lower (Ball eps p) n false x id_mat zero_vec no_kw = Ok l /\
        t_get_upper (Ball eps p) z (k_identity z) (k1 (fun _ => 0) z) = Ok tu /\ t_get_lower (Ball eps p) z (k_identity z) (k1 (fun _ => 0) z) = Ok tl /\ SV [n] tu u /\ SV [n] tl l).
    { destruct (t_get_upper_ok (Ball eps p) B b n Hb Hn HD' [n] z _ _ x _ _ Hx (k_identity_vec B b n z _ Hz) (k1_vec B b [n] (fun _ => 0) z _ Hz)) as (tu & u & Eu & Eu' & Hu).
      destruct (t_get_lower_ok (Ball eps p) B b n Hb Hn HD' [n] z _ _ x _ _ Hx (k_identity_vec B b n z _ Hz) (k1_vec B b [n] (fun _ => 0) z _ Hz)) as (tl & l & El & El' & Hl).
      exists u, l, tu, tl. auto 10. }
    destruct Ball_case as (u & l & tu & tl & Eu & El & Etu & Etl & Hu & Hl).
    pose proof (k_identity_vec B b n z _ Hz) as HI. pose proof (k1_vec B b [n] (fun _ => 0) z _ Hz) as HZ.
    assert (Hp : p = Pinf \/ exists k, p = Pnum k) by (destruct p; eauto). destruct Hp as [-> | (k & ->)].
    + pose proof (k1_vec B b [n] (fun v => v + eps) z _ Hz) as HU. pose proof (k1_vec B b [n] (fun v => v - eps) z _ Hz) as HL.
      pose proof (k_identity_vec B b n _ _ HU) as HI'. pose proof (k1_vec B b [n] (fun _ => 0) _ _ HU) as HZ'.
      destruct mode; cbn [get_ibp get_affine t_when bind when];
        (eexists _, _; split; [reflexivity|]; split; [reflexivity|]; apply extract_rel; split; intros Q; try discriminate Q);
        unfold aff_rel, ibp_rel; cbn [f_x f_wu f_bu f_wl f_bl f_uc f_lc]; auto 10.
    + destruct mode; cbn [get_ibp get_affine t_when bind when]; rewrite ?Eu, ?El, ?Etu, ?Etl; cbn [bind];
        (eexists _, _; split; [reflexivity|]; split; [reflexivity|]; apply extract_rel; split; intros Q; try discriminate Q);
        unfold aff_rel, ibp_rel; cbn [f_x f_wu f_bu f_wl f_bl f_uc f_lc]; auto 10.
Qed.

(** ** conversion between modes *)
Lemma t_convert_rel : forall from to_ s T ts, (from = IBP -> to_ = IBP) -> sample D from B b n s T ts ->
  exists T' ts', t_convert2mode D from to_ T = Ok T' /\ convert2mode D n from to_ ts = Ok ts' /\ sample D to_ B b n s T' ts'.
Proof.
  intros from to_ s T ts Hm H. unfold t_convert2mode, convert2mode. cbv zeta.
  match goal with |- context [t_fullinputs D from ?c ?t T] => destruct (fullinputs_rel D B b n Hb Hn HD from c t s T ts H) as (F & r & -> & -> & [[Ha Hi] _]) end. cbn [bind].
  assert (E : (mode_eqb from IBP && negb (mode_eqb to_ IBP))%bool = false) by (destruct from; cbn; try reflexivity; rewrite (Hm eq_refl); reflexivity).
  rewrite E. cbn [bind]. eexists _, _. split; [reflexivity|]. split; [reflexivity|]. apply extract_rel. split; intros Q.
  - apply Ha. destruct from, to_; try discriminate Q; try reflexivity; specialize (Hm eq_refl); discriminate Hm.
  - apply Hi. destruct from, to_; try discriminate Q; reflexivity.
Qed.
Lemma t_convert_ibp_rel : forall to_ m T ts, to_ <> IBP -> sample D IBP B b n [m] T ts ->
  exists T' ts', t_convert2mode D IBP to_ T = Ok T' /\ convert2mode D n IBP to_ ts = Ok ts' /\ sample Box to_ B b m [m] T' ts'.
Proof.
  intros to_ m T ts Hm H. unfold t_convert2mode, convert2mode. cbv zeta.
  match goal with |- context [t_fullinputs D IBP ?c ?t T] => destruct (fullinputs_rel D B b n Hb Hn HD IBP c t [m] T ts H) as (F & r & -> & -> & [[_ Hi] _]) end. cbn [bind].
  assert (E : (mode_eqb IBP IBP && negb (mode_eqb to_ IBP))%bool = true) by (destruct to_; cbn; congruence). rewrite E.
  destruct (Hi eq_refl) as [HU HL]. destruct (k_pair_vec B b [m] _ _ _ _ HL HU) as (X & -> & HX). cbn [bind].
  pose proof (k1_mat B b m [m] (fun v => 0 * v) _ _ (k_identity_vec B b m _ _ HL)) as HW.
  assert (HW0 : sample_mat B b m [m] (k1 (fun v => 0 * v) (k_identity (f_lc F))) (fun _ _ => 0)) by (revert HW; apply mat_ext; intros; ring).
  eexists _, _. split; [reflexivity|]. split; [reflexivity|]. apply extract_rel. split; intros Q.
  - unfold aff_rel; cbn [f_x f_wu f_bu f_wl f_bl sample_dom]. auto 10.
  - unfold ibp_rel; cbn [f_uc f_lc]. auto.
Qed.
End Net.

(** ** crown.py *)
Definition wt_sample (B b r c : nat) (t : nd) (w : wt) : Prop :=
  match w with WDiag v => r = c /\ sample_vec B b [c] t v | WFull m => sample_mat B b r [c] t m end.
Lemma t_full_rank : forall B b r c t w, wt_sample B b r c t w -> sample_mat B b r [c] (if Nat.eqb (rank t) 2 then k_diag t else t) (full_w w).
Proof.
  intros B b r c t [v|m] H; cbn [wt_sample full_w] in *.
  - destruct H as [-> H]. rewrite (rank_vec _ _ _ _ _ H). cbn [length Nat.eqb]. apply k_diag_vec; exact H.
  - rewrite (rank_mat _ _ _ _ _ _ H). cbn [length Nat.eqb]. exact H.
Qed.
Lemma t_merge_previous_rel : forall B b n h k w_u b_u w_l b_l w_b_u b_b_u w_b_l b_b_l WU BU WL BL VU CU VL CL, (b < B)%nat ->
  wt_sample B b n h w_u WU -> sample_vec B b [h] b_u BU -> wt_sample B b n h w_l WL -> sample_vec B b [h] b_l BL ->
  wt_sample B b h k w_b_u VU -> sample_vec B b [k] b_b_u CU -> wt_sample B b h k w_b_l VL -> sample_vec B b [k] b_b_l CL ->
  exists q, t_merge_previous w_u b_u w_l b_l w_b_u b_b_u w_b_l b_b_l = Ok q /\
    let m := merge_with_previous h WU BU WL BL VU CU VL CL in
    sample_mat B b n [k] (fst (fst (fst q))) (bb_wu m) /\ sample_vec B b [k] (snd (fst (fst q))) (bb_bu m) /\
    sample_mat B b n [k] (snd (fst q)) (bb_wl m) /\ sample_vec B b [k] (snd q) (bb_bl m).
Proof.
  intros B b n h k w_u b_u w_l b_l w_b_u b_b_u w_b_l b_b_l WU BU WL BL VU CU VL CL Hb H1 H2 H3 H4 H5 H6 H7 H8.
  apply t_full_rank in H1, H3, H5, H7. unfold t_merge_previous. cbv zeta.
  revert H1 H3 H5 H7. generalize (if Nat.eqb (rank w_u) 2 then k_diag w_u else w_u) (if Nat.eqb (rank w_l) 2 then k_diag w_l else w_l)
    (if Nat.eqb (rank w_b_u) 2 then k_diag w_b_u else w_b_u) (if Nat.eqb (rank w_b_l) 2 then k_diag w_b_l else w_b_l).
  intros a c d e H1 H3 H5 H7.
  pose proof (k1_mat B b h [k] (fun v => Rmax v 0) d _ H5) as P5. pose proof (k1_mat B b h [k] (fun v => Rmin v 0) d _ H5) as N5.
  pose proof (k1_mat B b h [k] (fun v => Rmax v 0) e _ H7) as P7. pose proof (k1_mat B b h [k] (fun v => Rmin v 0) e _ H7) as N7.
  destruct (k_batch_dot_mat B b Hb n h k _ _ _ _ H1 P5) as (t1 & -> & T1). cbn [bind]. destruct (k_batch_dot_mat B b Hb n h k _ _ _ _ H3 N5) as (t2 & -> & T2). cbn [bind].
  destruct (k2_mat B b Hb n [k] Rplus _ _ _ _ T1 T2) as (t3 & -> & T3). cbn [bind].
  destruct (k_batch_dot_mat B b Hb n h k _ _ _ _ H3 P7) as (t4 & -> & T4). cbn [bind]. destruct (k_batch_dot_mat B b Hb n h k _ _ _ _ H1 N7) as (t5 & -> & T5). cbn [bind].
  destruct (k2_mat B b Hb n [k] Rplus _ _ _ _ T4 T5) as (t6 & -> & T6). cbn [bind].
  destruct (k_batch_dot_vec B b Hb h k _ _ _ _ H2 P5) as (t7 & -> & T7). cbn [bind]. destruct (k_batch_dot_vec B b Hb h k _ _ _ _ H4 N5) as (t8 & -> & T8). cbn [bind].
  destruct (k2_vec B b Hb [k] Rplus _ _ _ _ T7 T8) as (t9 & -> & T9). cbn [bind]. destruct (k2_vec B b Hb [k] Rplus _ _ _ _ T9 H6) as (t10 & -> & T10). cbn [bind].
  destruct (k_batch_dot_vec B b Hb h k _ _ _ _ H4 P7) as (t11 & -> & T11). cbn [bind]. destruct (k_batch_dot_vec B b Hb h k _ _ _ _ H2 N7) as (t12 & -> & T12). cbn [bind].
  destruct (k2_vec B b Hb [k] Rplus _ _ _ _ T11 T12) as (t13 & -> & T13). cbn [bind]. destruct (k2_vec B b Hb [k] Rplus _ _ _ _ T13 H8) as (t14 & -> & T14). cbn [bind].
  eexists. split; [reflexivity|]. cbn [fst snd merge_with_previous bb_wu bb_bu bb_wl bb_bl]. auto.
Qed.
