(** Interval bounds through the wrappers: a smaller box, and sub-boxes. *)
From Coq Require Import String Reals Lra Lia Psatz List Arith Bool ZArith.
From Verif Require Import RLib Spec Spec_Network Spec_Wrapper Spec_Inclusion M_Core M_Backward M_Crown M_Convert M_Network M_Wrapper M_Domain M_Clone.
From Verif Require Import P_Core P_Network P_NetworkSpec P_NetworkCrown P_NetworkThm P_Domain P_Wrapper P_WrapperBox P_WrapperRefine P_Clone P_CloneThm P_InclusionThm.
From Verif Require Import Spec_Network.
Import ListNotations.
Local Open Scope R_scope.

(** the model returned by clone in forward-ibp *)
Definition ibp_model (ke : R) (fwd : nat -> lopts) (n : nat) (out : list nat) (net : network) (o : nat) : wmodel :=
  mk_wmodel Box true false false n out (fun D z _ => converted_domains ke D Box FORWARD_IBP IBP IBP fwd plain_bopts n net o z).
Lemma ibp_clone : forall ke fwd n out net o, clone ke (ibp_args None fwd) n out net o = Ok (ibp_model ke fwd n out net o).
Proof. reflexivity. Qed.

Lemma ibp_sample : forall ke fwd n out net o v p q, net_facts ke n out net o v -> layers_ok IBP fwd net ->
  (exists y, in_sample n p y) -> box_in n p q ->
  exists u l u' l', range_sample (ibp_model ke fwd n out net o) p = Ok (map u (seq 0 (prodn out)), map l (seq 0 (prodn out))) /\
    range_sample (ibp_model ke fwd n out net o) q = Ok (map u' (seq 0 (prodn out)), map l' (seq 0 (prodn out))) /\
    forall j, (j < prodn out)%nat -> l' j <= l j /\ u j <= u' j.
Proof.
  intros ke fwd n out net o v p q (Hke & Hn & Hnet & Hv & Ho & Hout) HL (y & Hy) HI.
  destruct (ibp_isotone ke Box Box n (ztensor p) (ztensor q) fwd fwd net o Hke Hn I I) as (ts & ts' & E & E' & (U & L & U' & L' & C & C' & H)); auto.
  - intros i Hi. specialize (Hy i Hi). unfold ztensor, lvec in *. cbn. lra.
  - intros w Hw i Hi. specialize (Hw i Hi). specialize (HI i Hi). unfold ztensor, lvec in *. cbn in *. lra.
  - destruct ts as [|u [|l [|]]]; try discriminate C. injection C as <- <-. destruct ts' as [|u' [|l' [|]]]; try discriminate C'. injection C' as <- <-.
    exists (u 0%nat), (l 0%nat), (u' 0%nat), (l' 0%nat). unfold range_sample. cbn [wm_predict wm_domain wm_n wm_ibp wm_affine ibp_model]. rewrite !domains_same.
    unfold converted. cbn [get_direction]. rewrite E, E'. cbn [bind]. unfold wm_k. cbn [wm_out ibp_model]. split; [reflexivity|]. split; [reflexivity|]. rewrite Hout. exact H.
Qed.

Theorem ibp_range_isotone : forall ke fwd n out net o v xmin xmax xmin' xmax' bs ns bs' ns',
  net_facts ke n out net o v -> layers_ok IBP fwd net -> boxes_ok n xmin xmax -> consistent n xmin xmax -> boxes_ok n xmin' xmax' -> consistent n xmin' xmax' -> small ns -> small ns' ->
  exists c u l u' l', clone ke (ibp_args None fwd) n out net o = Ok c /\
    get_range_box (Keras c) xmin xmax bs ns = Ok (u, l) /\ get_range_box (Keras c) xmin' xmax' bs' ns' = Ok (u', l') /\
    forall b b' j, (b < alen xmin)%nat -> (b' < alen xmin')%nat -> (j < prodn out)%nat -> box_in n (the_box xmin xmax b) (the_box xmin' xmax' b') ->
      cell l' b' j <= cell l b j /\ cell u b j <= cell u' b' j.
Proof.
  intros ke fwd n out net o v xmin xmax xmin' xmax' bs ns bs' ns' NF HL BO C BO' C' NS NS'.
  set (c := ibp_model ke fwd n out net o). exists c.
  assert (R : forall xmin xmax, boxes_ok n xmin xmax -> consistent n xmin xmax -> forall b, (b < alen xmin)%nat -> exists q, range_sample c (the_box xmin xmax b) = Ok q).
  { intros x X BX CX b Hb. destruct (ibp_sample ke fwd n out net o v (the_box x X b) (the_box x X b) NF HL (consistent_point n x X b BX CX Hb)) as (u & l & _ & _ & E & _); [intros i _; lra|]. eexists. exact E. }
  destruct (range_box_samples (Keras c) xmin xmax bs ns eq_refl eq_refl BO C NS (R _ _ BO C)) as (u & l & E & _ & _ & _ & _ & H).
  destruct (range_box_samples (Keras c) xmin' xmax' bs' ns' eq_refl eq_refl BO' C' NS' (R _ _ BO' C')) as (u' & l' & E' & _ & _ & _ & _ & H').
  exists u, l, u', l'. split; [apply ibp_clone|]. split; [exact E|]. split; [exact E'|]. intros b b' j Hb Hb' Hj HI.
  destruct (ibp_sample ke fwd n out net o v _ _ NF HL (consistent_point n xmin xmax b BO C Hb) HI) as (a & d & a' & d' & Q & Q' & K).
  specialize (H b Hb). specialize (H' b' Hb'). cbn [the_model] in H, H'. fold c in Q, Q'. rewrite Q in H. rewrite Q' in H'. injection H as H1 H2. injection H' as H3 H4.
  unfold cell. rewrite <- H1, <- H2, <- H3, <- H4. rewrite !nth_tab by exact Hj. exact (K j Hj).
Qed.

(** with sub-boxes and one output, the bounds of a box are the bounds of one of its parts *)
Lemma range_box_sub_values : forall a xmin xmax bs ns, let m := the_model a in
  is_box (wm_domain m) = true -> wm_bb m = false -> boxes_ok (wm_n m) xmin xmax -> consistent (wm_n m) xmin xmax -> a_tail xmin = [wm_n m] -> (1 < ns)%Z ->
  (forall b p, (b < alen xmin)%nat -> sub_of (wm_n m) p (the_box xmin xmax b) -> exists u l, range_sample m p = Ok ([u], [l])) ->
  exists u l, get_range_box a xmin xmax bs ns = Ok (u, l) /\ alen u = alen xmin /\ alen l = alen xmin /\
    forall b, (b < alen xmin)%nat ->
      (exists p v, sub_of (wm_n m) p (the_box xmin xmax b) /\ range_sample m p = Ok ([cell u b 0], [v])) /\
      (exists p v, sub_of (wm_n m) p (the_box xmin xmax b) /\ range_sample m p = Ok ([v], [cell l b 0])).
Proof.
  intros a xmin xmax bs ns m D BB BO C T NS H. unfold get_range_box.
  rewrite (consistent_dec (wm_n m)) by assumption. cbn [bind]. rewrite box_model_ok by exact D. cbn [bind]. fold m.
  destruct (sub_boxes_eq (wm_n m) xmin xmax ns BO C T NS) as (q & Q & E). rewrite E. cbn [bind].
  destruct (refined_all (wm_n m) q xmin xmax BO C) as (F1 & F2 & LR).
  set (s := concat (refined q xmin xmax)) in *.
  assert (B0 : (0 < alen xmin)%nat) by apply BO.
  assert (P2 : (2 <= 2 ^ q)%nat) by (destruct q; [lia|cbn [Nat.pow]; pose proof (Nat.pow_nonzero 2 q ltac:(lia)); lia]).
  assert (Ls : length s = (alen xmin * 2 ^ q)%nat) by (unfold s; rewrite (concat_len (2 ^ q)) by exact F1; rewrite LR; reflexivity).
  assert (Ns : s <> []) by (intro X; rewrite X in Ls; cbn in Ls; nia).
  destruct (samples_boxes_ok (wm_n m) [wm_n m] s ltac:(apply BO) Ns F2) as [BO' C'].
  rewrite to_samples_ok by (try assumption; rewrite BB; reflexivity). cbn [bind a_rows]. rewrite combine_map_fst_snd.
  assert (SS : forall b i, (b < alen xmin)%nat -> (i < 2 ^ q)%nat -> sub_of (wm_n m) (nth (b * 2 ^ q + i) s ([], [])) (the_box xmin xmax b)).
  { intros b i Hb Hi. unfold s. rewrite (concat_nth (2 ^ q)) by (try assumption; rewrite LR; exact Hb).
    destruct (refined_covers (wm_n m) q xmin xmax b BO C Hb) as [[S _] Lb]. rewrite Forall_forall in S. apply S, nth_In. rewrite Lb. exact Hi. }
  set (val := fun p => match range_sample m p with Ok q => q | Err _ => ([], []) end).
  assert (Hs : forall p, In p s -> exists u l, range_sample m p = Ok ([u], [l]) /\ val p = ([u], [l])).
  { intros p I. apply In_nth with (d := ([], [])) in I. destruct I as (k & Hk & <-).
    destruct (H (k / 2 ^ q)%nat (nth k s ([], []))) as (u & l & X).
    - rewrite Ls in Hk. apply Nat.div_lt_upper_bound; [lia|]. rewrite Nat.mul_comm. exact Hk.
    - replace k with (k / 2 ^ q * 2 ^ q + k mod 2 ^ q)%nat at 1 by (rewrite Nat.mul_comm; symmetry; apply Nat.div_mod; lia).
      apply SS; [rewrite Ls in Hk; apply Nat.div_lt_upper_bound; [lia|]; rewrite Nat.mul_comm; exact Hk|apply Nat.mod_upper_bound; lia].
    - exists u, l. split; [exact X|]. unfold val. rewrite X. reflexivity. }
  assert (Es : mapR (range_sample m) s = Ok (map val s)).
  { clear - Hs. induction s as [|p s IH]; [reflexivity|]. cbn [map mapR]. destruct (Hs p (or_introl eq_refl)) as (u & l & X & Y). rewrite X, Y. cbn [bind].
    rewrite IH by (intros; apply Hs; right; assumption). reflexivity. }
  assert (RR : (if (0 <? bs)%Z then rs <- mapR (range_call m) (slices (Z.to_nat bs) s) ; u <- np_concat (map fst rs) ; l <- np_concat (map snd rs) ; Ok (u, l) else range_eval m s)
    = range_eval m s).
  { destruct (0 <? bs)%Z eqn:Eb; [|reflexivity]. apply Z.ltb_lt in Eb. rewrite range_batch; try assumption; [reflexivity|apply BO|lia]. }
  cbn [bind] in RR |- *. rewrite RR. unfold range_eval. rewrite Es. cbn [bind fst snd]. rewrite !map_map.
  set (us := map (fun p => fst (val p)) s). set (ls := map (fun p => snd (val p)) s).
  assert (Lu : length us = length s) by apply map_length. assert (Ll : length ls = length s) by apply map_length.
  assert (FU : Forall (fun r => length r = 1%nat) us).
  { apply Forall_forall. intros r I. apply in_map_iff in I. destruct I as (p & <- & I). destruct (Hs p I) as (u & l & _ & ->). reflexivity. }
  assert (FL : Forall (fun r => length r = 1%nat) ls).
  { apply Forall_forall. intros r I. apply in_map_iff in I. destruct I as (p & <- & I). destruct (Hs p I) as (u & l & _ & ->). reflexivity. }
  rewrite (reduce_split_eq row_max (alen xmin) (2 ^ q) us) by (try assumption; lia). cbn [bind].
  rewrite (reduce_split_eq row_min (alen xmin) (2 ^ q) ls) by (try assumption; lia). cbn [bind].
  eexists _, _. split; [reflexivity|]. do 2 (split; [unfold alen at 1; cbn [a_rows]; rewrite map_length, chunks_length; reflexivity|]).
  intros b Hb. unfold cell; cbn [a_rows].
  assert (G : forall (red : list R -> R) (vs : list (list R)), nth 0 (nth b (map (fun r => [red r]) (chunks (alen xmin) (2 ^ q) (concat vs))) []) 0 = red (nth b (chunks (alen xmin) (2 ^ q) (concat vs)) [])).
  { intros red vs. rewrite (nth_indep _ [] [red []]) by (rewrite map_length, chunks_length; exact Hb). rewrite (map_nth (fun r => [red r])). reflexivity. }
  rewrite !G.
  assert (V : forall (vs : list (list R)) x, length vs = length s -> Forall (fun r => length r = 1%nat) vs -> In x (nth b (chunks (alen xmin) (2 ^ q) (concat vs)) []) ->
    exists i, (i < 2 ^ q)%nat /\ x = nth 0 (nth (b * 2 ^ q + i) vs []) 0).
  { intros vs x L F I. pose proof (chunks_rows (alen xmin) (2 ^ q) (concat vs)) as CR. rewrite (concat_len 1), L, Ls, Nat.mul_1_r in CR by exact F. specialize (CR eq_refl). rewrite Forall_forall in CR.
    assert (Lc : length (nth b (chunks (alen xmin) (2 ^ q) (concat vs)) []) = (2 ^ q)%nat) by (apply CR, nth_In; rewrite chunks_length; exact Hb).
    apply In_nth with (d := 0) in I. destruct I as (i & Hi & <-). rewrite Lc in Hi. exists i. split; [exact Hi|].
    rewrite (chunks_nth (alen xmin) (2 ^ q)) by assumption.
    rewrite <- (concat_nth 1 vs (b * 2 ^ q + i) 0 0) by (try assumption; try lia; rewrite L, Ls; nia). rewrite Nat.mul_1_r, Nat.add_0_r. reflexivity. }
  assert (NE : forall vs : list (list R), length vs = length s -> Forall (fun r => length r = 1%nat) vs -> nth b (chunks (alen xmin) (2 ^ q) (concat vs)) [] <> []).
  { intros vs L F X. pose proof (chunks_rows (alen xmin) (2 ^ q) (concat vs)) as CR. rewrite (concat_len 1), L, Ls, Nat.mul_1_r in CR by exact F. specialize (CR eq_refl). rewrite Forall_forall in CR.
    specialize (CR (nth b (chunks (alen xmin) (2 ^ q) (concat vs)) [])). rewrite X in CR. cbn [length] in CR. assert (0 = 2 ^ q)%nat; [|lia]. apply CR. rewrite <- X. apply nth_In. rewrite chunks_length. exact Hb. }
  assert (Z : forall i, (i < 2 ^ q)%nat -> In (nth (b * 2 ^ q + i) s ([], [])) s) by (intros i Hi; apply nth_In; rewrite Ls; nia).
  split.
  - destruct (V us _ Lu FU (row_max_in _ (NE us Lu FU))) as (i & Hi & Ei). rewrite Ei. exists (nth (b * 2 ^ q + i) s ([], [])).
    destruct (Hs _ (Z i Hi)) as (u & l & X & Y). exists l. split; [apply SS; assumption|]. rewrite X. unfold us.
    rewrite (nth_indep _ [] (fst (val ([], [])))) by (rewrite map_length, Ls; nia). rewrite (map_nth (fun p => fst (val p))). rewrite Y. reflexivity.
  - destruct (V ls _ Ll FL (row_min_in _ (NE ls Ll FL))) as (i & Hi & Ei). rewrite Ei. exists (nth (b * 2 ^ q + i) s ([], [])).
    destruct (Hs _ (Z i Hi)) as (u & l & X & Y). exists u. split; [apply SS; assumption|]. rewrite X. unfold ls.
    rewrite (nth_indep _ [] (snd (val ([], [])))) by (rewrite map_length, Ls; nia). rewrite (map_nth (fun p => snd (val p))). rewrite Y. reflexivity.
Qed.

(** forward-ibp, one output: cutting the boxes never loosens the bounds, and they stay bounds *)
Theorem ibp_range_sub : forall ke fwd n net o v xmin xmax bs ns bs',
  net_facts ke n [1%nat] net o v -> layers_ok IBP fwd net -> boxes_ok n xmin xmax -> consistent n xmin xmax -> a_tail xmin = [n] -> (1 < ns)%Z ->
  exists c u l u' l', clone ke (ibp_args None fwd) n [1%nat] net o = Ok c /\
    get_range_box (Keras c) xmin xmax bs ns = Ok (u, l) /\ get_range_box (Keras c) xmin xmax bs' 1 = Ok (u', l') /\
    forall b, (b < alen xmin)%nat -> cell l' b 0 <= cell l b 0 /\ cell u b 0 <= cell u' b 0 /\
      forall y, in_sample n (the_box xmin xmax b) y -> cell l b 0 <= v o y 0%nat <= cell u b 0.
Proof.
  intros ke fwd n net o v xmin xmax bs ns bs' NF HL BO C T NS.
  set (c := ibp_model ke fwd n [1%nat] net o). exists c.
  assert (PT : forall p q, sub_of n p q -> exists y, in_sample n p y).
  { intros p q (_ & _ & Hs). exists (lvec (fst p)). intros i Hi. specialize (Hs i Hi). lra. }
  assert (BI : forall p q, sub_of n p q -> box_in n p q).
  { intros p q (_ & _ & Hs) i Hi. specialize (Hs i Hi). lra. }
  destruct (range_box_sub_values (Keras c) xmin xmax bs ns eq_refl eq_refl BO C T NS) as (u & l & E & Lu & Ll & H).
  { intros b p Hb Hp. destruct (ibp_sample ke fwd n [1%nat] net o v p _ NF HL (PT _ _ Hp) (BI _ _ Hp)) as (x & y & _ & _ & Q & _). eexists. eexists. exact Q. }
  destruct (range_box_samples (Keras c) xmin xmax bs' 1 eq_refl eq_refl BO C) as (u' & l' & E' & _ & _ & _ & _ & H').
  { unfold small. lia. }
  { intros b Hb. destruct (ibp_sample ke fwd n [1%nat] net o v (the_box xmin xmax b) (the_box xmin xmax b) NF HL (consistent_point n xmin xmax b BO C Hb)) as (x & y & _ & _ & Q & _); [intros i _; lra|]. eexists. exact Q. }
  exists u, l, u', l'. split; [apply ibp_clone|]. split; [exact E|]. split; [exact E'|].
  intros b Hb. destruct (H b Hb) as [(p & w & Hp & Ep) (p' & w' & Hp' & Ep')]. specialize (H' b Hb). cbn [the_model] in *.
  destruct (ibp_sample ke fwd n [1%nat] net o v p _ NF HL (PT _ _ Hp) (BI _ _ Hp)) as (x & y & x' & y' & Q & Q' & K).
  destruct (ibp_sample ke fwd n [1%nat] net o v p' _ NF HL (PT _ _ Hp') (BI _ _ Hp')) as (xx & yy & xx' & yy' & QQ & QQ' & KK).
  fold c in Q, Q', QQ, QQ'. rewrite Q' in H'. rewrite QQ' in Q'. rewrite Q in Ep. rewrite QQ in Ep'. cbn in Q', H', Ep, Ep', K, KK.
  injection Q' as A1 A2. injection H' as B1 B2. injection Ep as D1 D2. injection Ep' as D3 D4. specialize (K 0%nat ltac:(lia)). specialize (KK 0%nat ltac:(lia)).
  assert (Cu : cell u' b 0 = x' 0%nat) by (unfold cell; rewrite <- B1; reflexivity). assert (Cl : cell l' b 0 = y' 0%nat) by (unfold cell; rewrite <- B2; reflexivity).
  split; [lra|]. split; [lra|].
  destruct (range_box_sub_sound (Keras c) (v o) xmin xmax bs ns eq_refl eq_refl BO C T NS eq_refl) as (u0 & l0 & E0 & _ & _ & H0).
  { intros b0 p0 Hb0 Hp0. destruct (clone_sound_all ke (ibp_args None fwd) n [1%nat] net o v (fun q => q = p0) NF (ibp_ready ke fwd n net _ HL)) as (c0 & Ec & _ & _ & _ & _ & S).
    - intros q ->. exact (PT _ _ Hp0).
    - rewrite ibp_clone in Ec. injection Ec as <-. apply S. reflexivity. }
  fold c in E0. rewrite E in E0. injection E0 as <- <-. intros z Hz. exact (H0 b z Hb Hz).
Qed.
