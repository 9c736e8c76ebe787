(** Instances of P_Clone: forward-ibp, the default method on affine networks, balls; examples and refutations. *)
From Coq Require Import String Reals Lra Lia List Arith Bool ZArith.
From Verif Require Import RLib Spec Spec_Network Spec_Wrapper M_Core M_Backward M_Crown M_Convert M_Network M_Wrapper M_Clone.
From Verif Require Import P_Core P_BackwardMore P_MetricsAdv P_Graph P_Crown P_Convert P_Network P_NetworkSpec P_NetworkCrown P_NetworkThm P_NetworkExact P_NetworkForward P_NetworkExactThm.
From Verif Require Import P_Domain P_Wrapper P_WrapperAdv P_WrapperAdvBox P_WrapperBox P_WrapperNoise P_Clone.
Import ListNotations.
Local Open Scope R_scope.

(** ** Methods without condition on the values *)

Definition ibp_args (D : option domain) (fwd : nat -> lopts) : clone_args := mk_args D "forward-ibp" None None fwd plain_bopts.

Lemma ibp_ready : forall ke fwd n net P, layers_ok IBP fwd net -> clone_ready ke (ibp_args None fwd) n net P.
Proof.
  intros ke fwd n net P H. exists FORWARD_IBP, IBP, true, false. split; [reflexivity|]. split; [reflexivity|]. split; [reflexivity|].
  split; [split; auto|]. intros p _ its i L ps vs _ _ _. apply nl_ibp_gaps. reflexivity.
Qed.

(** affine networks *)
Definition all_free (net : network) : Prop := forall i L ps, nth_error net i = Some (Some L, ps) -> bl_free L.

Lemma default_ready : forall ke n net P, blayers_ok plain_bopts net -> all_free net -> clone_ready ke default_args n net P.
Proof.
  intros ke n net P H F. exists CROWN, IBP, true, false. split; [reflexivity|]. split; [reflexivity|]. split; [reflexivity|].
  split; [split; auto|]. intros p _ its m i L ps imap ts _ _ En g _ _. apply bl_free_gaps. exact (F i L ps En).
Qed.

(** ** Exactness of the default call on affine networks *)

Lemma range_box_samples : forall a xmin xmax bs ns, let m := the_model a in
  is_box (wm_domain m) = true -> wm_bb m = false -> boxes_ok (wm_n m) xmin xmax -> consistent (wm_n m) xmin xmax -> small ns ->
  (forall b, (b < alen xmin)%nat -> exists q, range_sample m (the_box xmin xmax b) = Ok q) ->
  exists u l, get_range_box a xmin xmax bs ns = Ok (u, l) /\ a_tail u = wm_out m /\ a_tail l = wm_out m /\ alen u = alen xmin /\ alen l = alen xmin /\
    forall b, (b < alen xmin)%nat -> range_sample m (the_box xmin xmax b) = Ok (nth b (a_rows u) [], nth b (a_rows l) []).
Proof.
  intros a xmin xmax bs ns m D BB BO C NS H. unfold get_range_box.
  rewrite (consistent_dec (wm_n m)) by assumption. cbn [bind]. rewrite box_model_ok by exact D. cbn [bind].
  rewrite sub_boxes_one by exact NS. cbn [bind]. fold m. rewrite to_samples_ok by (try assumption; rewrite BB; reflexivity). cbn [bind].
  set (s := combine (a_rows xmin) (a_rows xmax)). destruct (combine_ne _ _ _ BO) as [Ls Ns]. fold s in Ls, Ns.
  set (val := fun p => match range_sample m p with Ok q => q | Err _ => ([], []) end).
  assert (Hs : forall p, In p s -> range_sample m p = Ok (val p)).
  { intros p I. apply In_nth with (d := ([], [])) in I. destruct I as (b & Hb & <-). unfold s. rewrite (the_box_combine (wm_n m)) by exact BO.
    destruct (H b) as (q & E); [rewrite <- Ls; exact Hb|]. unfold val. rewrite E. reflexivity. }
  assert (Es : mapR (range_sample m) s = Ok (map val s)).
  { clear Ls Ns. induction s as [|p s IH]; [reflexivity|]. cbn [map mapR]. rewrite Hs by (left; reflexivity). cbn [bind]. rewrite IH by (intros; apply Hs; right; assumption). reflexivity. }
  assert (R : (if (0 <? bs)%Z then rs <- mapR (range_call m) (slices (Z.to_nat bs) s) ; u <- np_concat (map fst rs) ; l <- np_concat (map snd rs) ; Ok (u, l) else range_eval m s)
    = range_eval m s).
  { destruct (0 <? bs)%Z eqn:Eb; [|reflexivity]. apply Z.ltb_lt in Eb. rewrite range_batch; try assumption; [reflexivity|apply BO|apply samples_ok; assumption|lia]. }
  cbn [bind] in R |- *. rewrite R. unfold range_eval. rewrite Es. cbn [bind fst snd]. unfold reduce_split. cbn [Nat.ltb Nat.leb bind].
  eexists _, _. split; [reflexivity|]. split; [reflexivity|]. split; [reflexivity|].
  split; [unfold alen; cbn [a_rows]; rewrite !map_length; exact Ls|]. split; [unfold alen; cbn [a_rows]; rewrite !map_length; exact Ls|].
  intros b Hb. cbn [a_rows]. assert (Q : nth b s ([], []) = the_box xmin xmax b) by (unfold s; rewrite (the_box_combine (wm_n m)) by exact BO; reflexivity).
  rewrite <- Q. rewrite Hs by (apply nth_In; lia).
  rewrite !map_map. rewrite (nth_indep _ [] (fst (val ([], [])))) by (rewrite map_length; lia). rewrite (map_nth (fun x => fst (val x))).
  rewrite (nth_indep _ [] (snd (val ([], [])))) by (rewrite map_length; lia). rewrite (map_nth (fun x => snd (val x))). destruct (val (nth b s ([], []))); reflexivity.
Qed.

Theorem default_range_exact : forall ke n out net o v xmin xmax bs ns,
  net_facts ke n out net o v -> blayers_ok plain_bopts net -> all_free net -> boxes_ok n xmin xmax -> consistent n xmin xmax -> small ns ->
  exists c u l, clone ke default_args n out net o = Ok c /\ get_range_box (Keras c) xmin xmax bs ns = Ok (u, l) /\ alen u = alen xmin /\ alen l = alen xmin /\
    forall b j, (b < alen xmin)%nat -> (j < prodn out)%nat ->
      is_max (in_sample n (the_box xmin xmax b)) (fun y => v o y j) (cell u b j) /\ is_min (in_sample n (the_box xmin xmax b)) (fun y => v o y j) (cell l b j).
Proof.
  intros ke n out net o v xmin xmax bs ns (Hke & Hn & Hnet & Hv & Ho & Hout) Hb Hf BO C NS.
  pose proof (clone_value ke default_args n out net o CROWN IBP true false eq_refl) as E. cbn [args_domain default_args ca_domain ca_fwd ca_bwd get_mode] in E.
  eexists. set (c := mk_wmodel _ _ _ _ _ _ _) in E.
  assert (X : forall b, (b < alen xmin)%nat -> exists u l, range_sample c (the_box xmin xmax b) = Ok (map (u 0%nat) (seq 0 (prodn out)), map (l 0%nat) (seq 0 (prodn out))) /\
    forall j, (j < prodn out)%nat -> is_max (in_sample n (the_box xmin xmax b)) (fun y => v o y j) (u 0%nat j) /\ is_min (in_sample n (the_box xmin xmax b)) (fun y => v o y j) (l 0%nat j)).
  { intros b Lb.
    destruct (net_crown_exact ke Box n IBP IBP (ztensor (the_box xmin xmax b)) (seq 0 (length net)) plain_bopts net v o) as (ts & Et & Hx); auto.
    - exact I.
    - intros i Hi. specialize (C b i Lb Hi). exact C.
    - apply seq_length.
    - apply seq_NoDup.
    - destruct ts as [|u [|l [|]]]; try contradiction. exists u, l. split; [|rewrite Hout; exact Hx].
      unfold range_sample, c. cbn [wm_predict wm_domain wm_n wm_ibp wm_affine]. rewrite domains_same. unfold converted. cbn [get_direction]. rewrite Et. reflexivity. }
  destruct (range_box_samples (Keras c) xmin xmax bs ns eq_refl eq_refl BO C NS) as (u & l & Eu & _ & _ & Lu & Ll & H).
  { intros b Lb. destruct (X b Lb) as (u & l & Q & _). eauto. }
  exists u, l. split; [exact E|]. split; [exact Eu|]. split; [exact Lu|]. split; [exact Ll|]. intros b j Lb Lj.
  destruct (X b Lb) as (ub & lb & Q & Hx). specialize (H b Lb). cbn [the_model] in H. rewrite Q in H. injection H as H1 H2. unfold cell. rewrite <- H1, <- H2.
  rewrite !nth_tab by exact Lj. exact (Hx j Lj).
Qed.

(** ** Balls *)

Definition ball_ready (ke : R) (a : clone_args) (n : nat) (net : network) (eps : R) (p : pord) (P : list R -> Prop) : Prop :=
  exists m mode fi fa, args_domain a = Ball eps p /\ clone_flags (ca_method a) (ca_ibp a) (ca_affine a) = Ok (m, mode, (fi, fa)) /\ final_some fi fa /\
    clone_fits (Ball eps p) m mode (get_mode fi fa) (ca_fwd a) (ca_bwd a) net /\ forall c, P c -> clone_gaps ke (Ball eps p) m mode (ca_fwd a) (ca_bwd a) n net (xtensor c).

Lemma ball_norm : forall eps p, known_norm p -> norm_ok (Ball eps p).
Proof. intros eps p [->|[->| ->]]; exact I. Qed.

Lemma ball_point : forall eps p n c, (0 < n)%nat -> 0 <= eps -> known_norm p -> exists y, in_dom (Ball eps p) n (xtensor c) y.
Proof. intros eps p n c Hn He Hp. apply dom_inhabited; [exact Hn|apply ball_norm; exact Hp|]. cbn. exact He. Qed.

Theorem net_range_noise : forall ke a n out net o v x eps p bs,
  net_facts ke n out net o v -> 0 <= eps -> known_norm p -> points_ok n x -> ball_ready ke a n net eps p (fun c => exists b, (b < alen x)%nat /\ c = point x b) ->
  exists c u l, clone ke a n out net o = Ok c /\ get_range_noise (Keras c) x eps p bs = Ok (u, l) /\ get_range_noise (Decomon c) x eps p bs = Ok (u, l) /\ alen u = alen x /\ alen l = alen x /\
    forall b j y, (b < alen x)%nat -> (j < prodn out)%nat -> in_ball n p eps (lvec (point x b)) y -> cell l b j <= v o y j <= cell u b j.
Proof.
  intros ke a n out net o v x eps p bs NF He Hp PO (m & mode & fi & fa & HD & Hfl & Hfi & Hfit & Hg).
  pose proof (clone_value ke a n out net o m mode fi fa Hfl) as E. eexists. set (c := mk_wmodel _ _ _ _ _ _ _) in E.
  assert (Ed : wm_domain c = Ball eps p) by exact HD.
  destruct (range_noise_sound (Keras c) (v o) x eps p bs He Hp) as (u & l & Eu & _ & _ & Lu & Ll & H); auto.
  - cbn [with_domain]. intros b Hb. destruct NF as (Hke & Hn & Hnet & Hv & Ho & Hout).
    destruct (clone_sound ke a n out net o v (xtensor (point x b)) m mode fi fa) as (c' & ts & E' & Ed' & Eb & En & Eo & Em & Ep & V); auto; try (rewrite HD; auto using ball_norm, ball_point).
    + apply Hg. eauto.
    + rewrite E in E'. injection E' as <-. rewrite HD in *. exists (get_mode fi fa), ts, false. split; [exact Em|]. rewrite Ed. split; [exact Ep|exact V].
  - exists u, l. split; [exact E|]. split; [exact Eu|]. split; [|split; [exact Lu|split; [exact Ll|]]].
    + unfold get_range_noise in *. rewrite noise_model_again by assumption. cbn [noise_model bind] in Eu. exact Eu.
    + exact H.
Qed.

Lemma ibp_ball_ready : forall ke fwd n net eps p P, layers_ok IBP fwd net -> ball_ready ke (ibp_args (Some (Ball eps p)) fwd) n net eps p P.
Proof.
  intros ke fwd n net eps p P H. exists FORWARD_IBP, IBP, true, false. split; [reflexivity|]. split; [reflexivity|]. split; [reflexivity|].
  split; [split; auto|]. intros c _ its i L ps vs _ _ _. apply nl_ibp_gaps. reflexivity.
Qed.

(** what get_range_noise converts a Keras model with *)
Lemma noise_ready : forall ke n net eps p P, 0 <= eps -> blayers_ok plain_bopts net -> layers_ok HYBRID plain_opts net -> all_free net ->
  (forall i L ps, nth_error net i = Some (Some L, ps) -> nl_free false L) -> ball_ready ke (noise_call eps p) n net eps p P.
Proof.
  intros ke n net eps p P He HB HF F F'. exists CROWN_FORWARD_HYBRID, HYBRID, true, true. split; [cbn; rewrite Rmax_right by exact He; reflexivity|]. split; [reflexivity|]. split; [reflexivity|].
  split; [split; [discriminate|split; auto]|]. intros c _. split.
  - intros its i L ps vs _ En _. apply nl_free_gaps. exact (F' i L ps En).
  - intros its m i L ps imap ts _ _ En g _ _. apply bl_free_gaps. exact (F i L ps En).
Qed.

(** ** The default method around a kink of relu: a negative score and an adversarial point *)

(** (relu y, 3 epsilon / 16) *)
Definition cert_kernel : mat := fun _ u => if Nat.eqb u 0 then 1 else 0.
Definition cert_bias (ke : R) : vec := fun u => if Nat.eqb u 0 then 0 else 3 * ke / 16.
Definition cert_net (ke : R) : network :=
  [(None, []); (Some (NActivation Arelu 1), [0%nat]); (Some (NDense 1 1 2 cert_kernel (Some (cert_bias ke))), [1%nat])].
Definition cert_value (ke : R) (i : nat) (y : vec) : vec :=
  match i with O => y | 1%nat => fun _ => Rmax (y 0%nat) 0 | _ => fun u => if Nat.eqb u 0 then Rmax (y 0%nat) 0 else 3 * ke / 16 end.

Lemma cert_facts : forall ke, 0 < ke -> net_facts ke 1 [2%nat] (cert_net ke) 2 (cert_value ke).
Proof.
  intros ke Hke. split; [exact Hke|]. split; [lia|]. split; [|split; [|split]].
  - intros i o ps E. unfold cert_net in E. each_node E; (split; [intros p Hp; cbn in Hp; lia|]); try reflexivity; (split; [discriminate|reflexivity]).
  - intros y i o ps E. unfold cert_net in E. each_node E; cbn [cert_value].
    + reflexivity.
    + intros j Hj. replace j with O by lia. reflexivity.
    + intros p u Hp Hu. replace p with O by lia. unfold cert_kernel, opt_vec, cert_bias. cbn [Nat.mul Nat.add]. destruct u as [|[|]]; [| |lia]; cbn [Nat.eqb]; unfold rsum; cbn; lra.
  - split; [cbn; lia|]. intros j Hj. cbn in Hj. destruct j as [|[|[|]]]; [step 1%nat; step 2%nat; constructor|step 2%nat; constructor|constructor|lia].
  - reflexivity.
Qed.
Definition kink_lo (ke : R) : arr R := mk_arr [1%nat] [[- (ke / 4)]].
Definition kink_hi (ke : R) : arr R := mk_arr [1%nat] [[ke / 4]].
Definition second_class : arr Z := mk_arr [2%nat] [[0; 1]%Z].
Ltac cert_relu ke :=
    replace (0 + (Rmax 1 0 * - (ke / 4) + Rmin 1 0 * (ke / 4)) + 0) with (- (ke / 4)) by (rminmax; lra);
    replace (0 + (Rmax 1 0 * (ke / 4) + Rmin 1 0 * - (ke / 4)) + 0) with (ke / 4) by (rminmax; lra);
    replace (Rmax ke (ke / 4 - - (ke / 4))) with ke by (rminmax; lra);
    replace (Rmax (ke / 4) 0) with (ke / 4) by (rminmax; lra);
    replace (Rmax (- (ke / 4)) 0) with 0 by (rminmax; lra);
    replace ((ke / 4 - 0) / ke) with (1 / 4) by (field; lra);
    repeat match goal with |- context [Rlt_dec ?a ?b] => destruct (Rlt_dec a b); try (exfalso; lra) end;
    repeat match goal with
      | |- context [Rmax ?a ?b] => first [rewrite (Rmax_left a b) by lra | rewrite (Rmax_right a b) by lra]
      | |- context [Rmin ?a ?b] => first [rewrite (Rmin_left a b) by lra | rewrite (Rmin_right a b) by lra]
      end;
    split; [|split; [|split]]; lra.
Lemma cert_run : forall ke, 0 < ke -> exists u l,
  converted ke Box CROWN IBP IBP plain_opts plain_bopts 1 (cert_net ke) 2 (ztensor (the_box (kink_lo ke) (kink_hi ke) 0)) = Ok [u; l] /\
  u 0%nat 0%nat = ke / 8 /\ l 0%nat 1%nat = 3 * ke / 16 /\ l 0%nat 0%nat <= u 0%nat 0%nat /\ l 0%nat 1%nat <= u 0%nat 1%nat.
Proof.
  intros ke Hke. eexists. eexists. split.
  - cbv -[Rmax Rmin Rplus Rmult Rminus Ropp IZR Rlt Rle Rdiv Rinv Req_EM_T]. destruct (Req_EM_T 0 0) as [_|N]; [|congruence]. reflexivity.
  - cbv -[Rmax Rmin Rplus Rmult Rminus Ropp IZR Rlt Rle Rdiv Rinv]. cert_relu ke.
Qed.

Theorem default_adv_refuted : forall ke, 0 < ke -> exists c r y,
  let lo := kink_lo ke in let hi := kink_hi ke in
  net_facts ke 1 [2%nat] (cert_net ke) 2 (cert_value ke) /\ boxes_ok 1 lo hi /\ consistent 1 lo hi /\ mask_ok 1 2 second_class /\
  clone ke default_args 1 [2%nat] (cert_net ke) 2 = Ok c /\ get_adv_box (Keras c) lo hi (LArr second_class) None (-1) 1 = Ok r /\ nth 0 r 0 < 0 /\
  in_sample 1 (the_box lo hi 0) y /\ pair_of second_class None 0 0 1 /\ cert_value ke 2 y 1%nat < cert_value ke 2 y 0%nat.
Proof.
  intros ke Hke.
  pose proof (clone_value ke default_args 1 [2%nat] (cert_net ke) 2 CROWN IBP true false eq_refl) as E. cbn [args_domain default_args ca_domain ca_fwd ca_bwd get_mode] in E.
  set (c := mk_wmodel _ _ _ _ _ _ _) in E. set (lo := kink_lo ke). set (hi := kink_hi ke).
  assert (BO : boxes_ok 1 lo hi) by (repeat split; try (cbn; lia); repeat constructor).
  assert (C : consistent 1 lo hi) by (intros [|b] [|i] Hb Hi; cbn in *; try lia; lra).
  assert (MO : mask_ok 1 2 second_class) by (split; [reflexivity|]; split; [repeat constructor|]; intros [|b] [|[|j]] Hb Hj; cbn in *; try lia; auto).
  destruct (cert_run ke Hke) as (u & l & Er & U0 & L1 & O0 & O1).
  assert (Ep : wm_predict c Box (ztensor (the_box lo hi 0)) None = Ok [u; l]) by (unfold c; cbn [wm_predict]; rewrite domains_same; exact Er).
  set (f := fun (_ : vec) j => l 0%nat j).
  assert (SO : forall b, (b < alen lo)%nat -> sound_on c f (the_box lo hi b)).
  { intros b Hb. replace b with O by (cbn in Hb; lia). exists IBP, [u; l], false. split; [reflexivity|]. split; [exact Ep|]. split; [reflexivity|].
    intros z j _ Hj. change (wm_k c) with 2%nat in Hj. unfold f. destruct j as [|[|j]]; [| |lia]; lra. }
  destruct (adv_box_score (Keras c) f lo hi second_class None (-1) 1) as (r & Ea & _ & H).
  { unfold adv_args. cbn [the_model]. repeat split; auto; try (cbn; lia); try apply BO; apply MO. }
  { reflexivity. } { unfold small; lia. } { exact SO. }
  assert (Hp : pair_of second_class None 0 0 1) by (split; reflexivity).
  specialize (H 0%nat IBP [u; l] ltac:(cbn; lia) eq_refl Ep). destruct H as [_ (t & s & Ht & Hs & (Q1 & Q2) & Hv)].
  { exists 0%nat, 1%nat. split; [cbn; lia|]. split; [cbn; lia|]. exact Hp. }
  change (wm_k (the_model (Keras c))) with 2%nat in Ht, Hs.
  assert (t = 0%nat) by (destruct t as [|[|t]]; [reflexivity|discriminate Q2|lia]). assert (s = 1%nat) by (destruct s as [|[|s]]; [discriminate Q1|reflexivity|lia]). subst t s.
  exists c, r, (fun _ => ke / 4). split; [apply cert_facts; exact Hke|]. split; [exact BO|]. split; [exact C|]. split; [exact MO|]. split; [exact E|]. split; [exact Ea|].
  split; [rewrite <- Hv; lra|]. split; [intros [|i] Hi; [cbn; lra|lia]|]. split; [exact Hp|]. cbn [cert_value Nat.eqb]. rewrite Rmax_left by lra. lra.
Qed.

(** ** Cases *)

Lemma image_facts : forall ke kernel bias gamma mean dense fwd P, 0 < ke -> (forall i, plain (fwd i)) ->
  net_facts ke 9 [3%nat] (image_net kernel bias gamma mean dense) 8 (net_fn (image_net kernel bias gamma mean dense)) /\
  clone_ready ke (ibp_args None fwd) 9 (image_net kernel bias gamma mean dense) P.
Proof.
  intros ke kernel bias gamma mean dense fwd P Hke Hf. split; [|apply ibp_ready, image_layers_ok; exact Hf].
  split; [exact Hke|]. split; [lia|]. split; [apply image_net_ok|]. split; [apply image_value|]. split; [apply image_output|reflexivity].
Qed.

Lemma dd_facts : forall ke n k1 k2 eps p P, 0 < ke -> (0 < n)%nat -> 0 <= eps ->
  net_facts ke n [n] (dd_net n k1 k2) 2 (net_fn (dd_net n k1 k2)) /\ blayers_ok plain_bopts (dd_net n k1 k2) /\ all_free (dd_net n k1 k2) /\
  ball_ready ke (noise_call eps p) n (dd_net n k1 k2) eps p P.
Proof.
  intros ke n k1 k2 eps p P Hke Hn He.
  assert (HF : all_free (dd_net n k1 k2)) by (intros i L ps E; unfold dd_net in E; each_node E; exact I).
  split; [|split; [apply dd_layers; exact Hn|split; [exact HF|]]].
  - split; [exact Hke|]. split; [exact Hn|]. split; [apply dd_net_ok|]. split; [|split; [apply dd_output|cbn; lia]].
    apply (net_value_exists n); [apply dd_net_ok|]. intros i L ps E. exists AFFINE, true. apply bl_nl_ok. exact (proj1 (dd_layers n k1 k2 Hn i L ps E)).
  - apply noise_ready; [exact He|apply dd_layers; exact Hn| |exact HF|].
    + intros i L ps E. unfold dd_net in E. each_node E; cbn; auto.
    + intros i L ps E. unfold dd_net in E. each_node E; exact I.
Qed.

(** ** forward-ibp: no condition *)

Theorem ibp_net_adv : forall ke fwd n out net o v xmin xmax src tgt bs ns,
  net_facts ke n out net o v -> layers_ok IBP fwd net ->
  (0 < prodn out)%nat -> boxes_ok n xmin xmax -> consistent n xmin xmax -> mask_ok (alen xmin) (prodn out) src -> mask_opt (alen xmin) (prodn out) tgt -> small ns ->
  exists c r, clone ke (ibp_args None fwd) n out net o = Ok c /\ get_adv_box (Keras c) xmin xmax (LArr src) (option_map LArr tgt) bs ns = Ok r /\ length r = alen xmin /\
    forall b y, (b < alen xmin)%nat -> in_sample n (the_box xmin xmax b) y -> nth b r 0 < 0 -> no_attack (prodn out) (pair_of src tgt b) (v o) y.
Proof. intros. apply net_adv_box; auto using ibp_ready. Qed.

Theorem ibp_net_range : forall ke fwd n out net o v xmin xmax bs ns,
  net_facts ke n out net o v -> layers_ok IBP fwd net -> boxes_ok n xmin xmax -> consistent n xmin xmax -> small ns ->
  exists c u l, clone ke (ibp_args None fwd) n out net o = Ok c /\ get_range_box (Keras c) xmin xmax bs ns = Ok (u, l) /\ a_tail u = out /\ a_tail l = out /\ alen u = alen xmin /\ alen l = alen xmin /\
    forall b y j, (b < alen xmin)%nat -> in_sample n (the_box xmin xmax b) y -> (j < prodn out)%nat -> cell l b j <= v o y j <= cell u b j.
Proof. intros. apply net_range_box; auto using ibp_ready. Qed.

Theorem ibp_net_noise : forall ke fwd n out net o v x eps p bs,
  net_facts ke n out net o v -> layers_ok IBP fwd net -> 0 <= eps -> known_norm p -> points_ok n x ->
  exists c u l, clone ke (ibp_args (Some (Ball eps p)) fwd) n out net o = Ok c /\ get_range_noise (Decomon c) x eps p bs = Ok (u, l) /\ alen u = alen x /\ alen l = alen x /\
    forall b j y, (b < alen x)%nat -> (j < prodn out)%nat -> in_ball n p eps (lvec (point x b)) y -> cell l b j <= v o y j <= cell u b j.
Proof.
  intros ke fwd n out net o v x eps p bs NF HL He Hp PO.
  destruct (net_range_noise ke (ibp_args (Some (Ball eps p)) fwd) n out net o v x eps p bs NF He Hp PO) as (c & u & l & E & _ & Eu & Lu & Ll & H); [apply ibp_ball_ready; exact HL|].
  exists c, u, l. auto.
Qed.

(** sub-boxes, inputs with one axis *)
Theorem ibp_net_adv_sub : forall ke fwd n out net o v xmin xmax src tgt bs ns,
  net_facts ke n out net o v -> layers_ok IBP fwd net ->
  (0 < prodn out)%nat -> boxes_ok n xmin xmax -> consistent n xmin xmax -> mask_ok (alen xmin) (prodn out) src -> mask_opt (alen xmin) (prodn out) tgt -> (1 < ns)%Z -> a_tail xmin = [n] ->
  exists c r, clone ke (ibp_args None fwd) n out net o = Ok c /\ get_adv_box (Keras c) xmin xmax (LArr src) (option_map LArr tgt) bs ns = Ok r /\ length r = alen xmin /\
    forall b y, (b < alen xmin)%nat -> in_sample n (the_box xmin xmax b) y -> nth b r 0 < 0 -> no_attack (prodn out) (pair_of src tgt b) (v o) y.
Proof.
  intros ke fwd n out net o v xmin xmax src tgt bs ns NF HL K BO C M1 M2 NS T.
  set (P := fun p => exists b, (b < alen xmin)%nat /\ sub_of n p (the_box xmin xmax b)).
  destruct (clone_sound_all ke (ibp_args None fwd) n out net o v P NF (ibp_ready ke fwd n net P HL)) as (c & E & Ed & Eb & En & Eo & S).
  { intros p (b & Hb & _ & _ & Hs). exists (lvec (fst p)). intros i Hi. specialize (Hs i Hi). lra. }
  assert (Ek : wm_k c = prodn out) by (unfold wm_k; rewrite Eo; reflexivity).
  destruct (adv_box_sub_sound (Keras c) (v o) xmin xmax src tgt bs ns) as (r & Er & Lr & H).
  - unfold adv_args. cbn [the_model]. rewrite Ek, En. repeat split; auto; try apply BO; apply M1.
  - exact Eb.
  - exact NS.
  - cbn [the_model]. rewrite En. exact T.
  - cbn [the_model]. rewrite En. intros b p Hb Hs. apply S. exists b. auto.
  - exists c, r. split; [exact E|]. split; [exact Er|]. split; [exact Lr|]. intros b y Hb Hy Hr. cbn [the_model] in H. rewrite Ek, En in H. exact (proj2 (H b y Hb Hy) Hr).
Qed.
