(** refine_box (C51). *)
From Coq Require Import Reals Lra Lia List Arith Bool ZArith.
From Verif Require Import RLib Spec M_Core M_State M_Wrapper Spec_Wrapper P_Core P_Wrapper P_WrapperRefine P_WrapperAdv P_WrapperAdvBox P_WrapperLabels.
Import ListNotations.
Local Open Scope R_scope.

(** ** The splitting *)

Definition st_ok (n : nat) (p : box) (st : rstate) : Prop := covers n (map fst st) p /\ Forall (fun q => length (snd q) = n) st /\ st <> [].

Lemma replace_nth_len : forall {A} i (v : A) l, length (replace_nth i v l) = length l.
Proof. intros A i v l. revert i. induction l as [|x l IH]; intros [|i]; cbn; auto. Qed.
Lemma replace_nth_in : forall {A} i (v : A) l x, In x (replace_nth i v l) -> x = v \/ In x l.
Proof. intros A i v l. revert i. induction l as [|y l IH]; intros [|i] x H; cbn in *; auto; destruct H as [H|H]; auto. destruct (IH i x H); auto. Qed.
Lemma replace_nth_keep : forall {A} i (v d : A) l x, In x l -> x = nth i l d \/ In x (replace_nth i v l).
Proof.
  intros A i v d l. revert i. induction l as [|y l IH]; intros [|i] x H; cbn in *; [contradiction|contradiction| |].
  - destruct H as [H|H]; [left; auto|right; right; exact H].
  - destruct H as [H|H]; [right; left; exact H|]. destruct (IH i x H); auto.
Qed.
Lemma replace_nth_has : forall {A} i (v : A) l, (i < length l)%nat -> In v (replace_nth i v l).
Proof. intros A i v l. revert i. induction l as [|y l IH]; intros [|i] H; cbn in *; [lia|lia|left; reflexivity|right; apply IH; lia]. Qed.

Lemma rstep_ok : forall n p st i j, (0 < n)%nat -> st_ok n p st -> (i < length st)%nat -> (j < n)%nat ->
  let '(b, w) := nth i st (([], []), []) in let w' := set_nth j (nth j w 0 / 2) w in
  st_ok n p (replace_nth i (half0 b j, w') st ++ [(half1 b j, w')]).
Proof.
  intros n p st i j N ([S C] & W & NE) I J. destruct (nth i st (([], []), [])) as [b w] eqn:E. cbv zeta.
  assert (IN : In (b, w) st) by (rewrite <- E; apply nth_In; exact I).
  rewrite Forall_forall in S, W.
  assert (SB : sub_of n b p) by (apply S; apply in_map_iff; exists (b, w); split; [reflexivity|exact IN]).
  assert (SK : sample_ok n b) by (eapply sub_of_sample; exact SB).
  assert (LW : length w = n) by (specialize (W _ IN); exact W).
  split; [split|split].
  - apply Forall_forall. intros q Q. rewrite map_app in Q. apply in_app_or in Q. destruct Q as [Q|Q].
    + apply in_map_iff in Q. destruct Q as [[q' w1] [Eq Q]]. cbn in Eq. subst q'. apply replace_nth_in in Q. destruct Q as [Q|Q].
      * inversion Q; subst. eapply sub_of_trans; [apply half0_sub; eassumption|exact SB].
      * apply S. apply in_map_iff. exists (q, w1). split; [reflexivity|exact Q].
    + cbn in Q. destruct Q as [<-|[]]. eapply sub_of_trans; [apply half1_sub; eassumption|exact SB].
  - intros z Z. destruct (C z Z) as [q [Q Zq]]. apply in_map_iff in Q. destruct Q as [[q' w1] [Eq Q]]. cbn in Eq. subst q'.
    destruct (replace_nth_keep i (half0 b j, set_nth j (nth j w 0 / 2) w) (([], []), []) st (q, w1) Q) as [X|X].
    + rewrite E in X. inversion X; subst q w1. destruct (halves_cover n b j z SK J Zq) as [H|H].
      * exists (half0 b j). split; [|exact H]. rewrite map_app. apply in_or_app. left. apply in_map_iff. eexists. split; [|apply replace_nth_has; exact I]. reflexivity.
      * exists (half1 b j). split; [|exact H]. rewrite map_app. apply in_or_app. right. left. reflexivity.
    + exists q. split; [|exact Zq]. rewrite map_app. apply in_or_app. left. apply in_map_iff. exists (q, w1). split; [reflexivity|exact X].
  - apply Forall_forall. intros q Q. apply in_app_or in Q. destruct Q as [Q|Q].
    + apply replace_nth_in in Q. destruct Q as [->|Q]; [cbn; rewrite set_nth_len; exact LW|apply W; exact Q].
    + cbn in Q. destruct Q as [<-|[]]. cbn. rewrite set_nth_len; exact LW.
  - intro X. apply app_eq_nil in X. destruct X as [_ X]. discriminate.
Qed.

Lemma rloop_ok : forall n p steps count st, (0 < n)%nat -> st_ok n p st -> exists st', rloop None n count steps st = Ok st' /\ st_ok n p st' /\ length st' = (length st + steps)%nat.
Proof.
  intros n p steps. induction steps as [|q IH]; intros count st N H; cbn [rloop].
  - exists st. split; [reflexivity|]. split; [exact H|lia].
  - cbn [option_map]. unfold rstep, rpick. cbn [bind].
    set (i := argmax (map (fun q => row_max (snd q)) st)). set (j := argmax (snd (nth i st (([], []), [])))).
    assert (I : (i < length st)%nat).
    { unfold i. rewrite <- (map_length (fun q : box * list R => row_max (snd q)) st). apply argmax_range. destruct H as (_ & _ & NE). destruct st; [contradiction|discriminate]. }
    assert (J : (j < n)%nat).
    { destruct H as (_ & W & _). rewrite Forall_forall in W. specialize (W (nth i st (([], []), [])) (nth_In _ _ I)). unfold j. rewrite <- W. apply argmax_range. intro X. rewrite X in W. cbn in W. lia. }
    pose proof (rstep_ok n p st i j N H I J) as OK. destruct (nth i st (([], []), [])) as [b w]. cbv zeta in OK. cbn [bind].
    destruct (IH (S count) _ N OK) as (st' & E & OK' & L). exists st'. split; [exact E|]. split; [exact OK'|]. rewrite L, app_length, replace_nth_len. cbn [length]. lia.
Qed.

Lemma rsplit_ok : forall n p ns, (0 < n)%nat -> (0 < ns)%nat -> sample_ok n p -> exists l, rsplit None n ns p = Ok l /\ covers n l p /\ length l = ns.
Proof.
  intros n p ns N NS SK. unfold rsplit.
  assert (OK : st_ok n p [(p, widths p)]).
  { split; [apply covers_one; exact SK|]. split; [|discriminate]. constructor; [|constructor]. cbn. apply widths_len; apply SK. }
  destruct (rloop_ok n p (ns - 1) 1 _ N OK) as (st & E & (C & _) & L). rewrite E. cbn [bind]. exists (map fst st). split; [reflexivity|]. split; [exact C|]. rewrite map_length, L. cbn [length]. lia.
Qed.

(** random splitting: randint(0) *)
Lemma rsplit_random : forall d n ns p, (2 <= ns)%nat -> rsplit (Some d) n ns p = Err ValueError.
Proof.
  intros d n ns p NS. unfold rsplit. destruct (ns - 1)%nat as [|q] eqn:E; [lia|]. cbn [rloop option_map]. unfold rstep, rpick. destruct (d 1%nat) as [d1 d2]. cbn. reflexivity.
Qed.

(** ** The function *)

Definition split_all (n ns : nat) (samples : list box) : result (list (list box)) :=
  mapR (fun q => rsplit None n ns (snd q)) (combine (seq 0 (length samples)) samples).

Lemma split_all_ok : forall n ns samples, (0 < n)%nat -> (0 < ns)%nat -> Forall (sample_ok n) samples ->
  exists bss, split_all n ns samples = Ok bss /\ Forall2 (fun p l => covers n l p /\ length l = ns) samples bss.
Proof.
  intros n ns samples N NS F. unfold split_all.
  destruct (mapR_Forall2 (fun q : nat * box => rsplit None n ns (snd q)) (fun p l => covers n l p /\ length l = ns) snd (combine (seq 0 (length samples)) samples)) as (r & E & P).
  { intros [i p] I. apply in_combine_r in I. rewrite Forall_forall in F. cbn [snd]. apply rsplit_ok; auto. }
  exists r. split; [exact E|]. destruct (combine_len_eq (seq 0 (length samples)) samples (seq_length _ _)) as [_ X]. rewrite X in P. exact P.
Qed.

(** one sample: the mask is broadcast to the parts *)
Lemma penalised_one : forall k ups s r, (0 < k)%nat -> ups <> [] -> length r = k -> flatten s = r -> penalised k ups s None = penalised k ups (mk_arr [k] (repeat r (length ups))) None.
Proof.
  intros k ups s r K0 NU LR FS. unfold penalised. cbn [a_tail a_rows].
  assert (RS : forall t (x : arr Z), length (flatten x) = k -> t = [k] -> reshape x t = Ok (mk_arr [k] [flatten x])).
  { intros t x L ->. unfold reshape. cbn [prodn]. rewrite Nat.mul_1_r, L. replace (k =? 0)%nat with false by (symmetry; apply Nat.eqb_neq; lia).
    rewrite Nat.mod_same, Nat.eqb_refl, Nat.div_same by lia. cbn [chunks]. rewrite firstn_all2 by lia. reflexivity. }
  assert (FM : flatten (mk_arr (a_tail s) (map (map (fun v => (1 - v)%Z)) (a_rows s))) = map (fun v => (1 - v)%Z) r).
  { unfold flatten; cbn [a_rows]. rewrite <- concat_map. unfold flatten in FS. rewrite FS. reflexivity. }
  rewrite (RS [k] _) by (try reflexivity; rewrite FM, map_length; exact LR). rewrite FM. cbn [bind]. rewrite (RS [k] s) by (try reflexivity; rewrite FS; exact LR). rewrite FS. cbn [bind a_rows].
  assert (RR : forall q : list Z, length q = k -> rows_of k (mk_arr [k] (repeat q (length ups)))).
  { intros q Lq. unfold rows_of; cbn [a_rows]. apply Forall_forall. intros x I. apply repeat_spec in I. subst. exact Lq. }
  assert (MR : map (map (fun v => (1 - v)%Z)) (repeat r (length ups)) = repeat (map (fun v => (1 - v)%Z) r) (length ups)).
  { generalize (length ups) as c. induction c; cbn; [reflexivity|f_equal; assumption]. }
  rewrite MR. rewrite (reshape_same _ _ k) by (first [cbn; lia|apply RR; rewrite map_length; exact LR]). cbn [bind a_rows].
  rewrite (reshape_same _ _ k) by (first [cbn; lia|apply RR; exact LR]). cbn [bind a_rows].
  assert (B2 : bcast (repeat (map (fun v => (1 - v)%Z) r) (length ups)) (repeat r (length ups)) = Ok (repeat (map (fun v => (1 - v)%Z) r, r) (length ups))).
  { unfold bcast. rewrite !repeat_length, Nat.eqb_refl. f_equal. generalize (length ups) as c. induction c; cbn; [reflexivity|f_equal; assumption]. }
  rewrite B2. unfold bcast at 1. cbn [length Nat.eqb combine bind]. rewrite repeat_length, Nat.eqb_refl, andb_false_r. cbn [negb andb].
  assert (E1 : forall q : list Z * list Z, bcast ups [q] = Ok (map (fun u => (u, q)) ups)).
  { intro q. unfold bcast. destruct ups as [|u [|u' l]]; [contradiction|reflexivity|reflexivity]. }
  rewrite E1. assert (E2 : forall q : list Z * list Z, bcast ups (repeat q (length ups)) = Ok (map (fun u => (u, q)) ups)).
  { intro q. unfold bcast. rewrite repeat_length, Nat.eqb_refl. f_equal. clear. induction ups; cbn; [reflexivity|f_equal; assumption]. }
  rewrite E2. reflexivity.
Qed.

Section Refine.
Variables (a : anymodel) (f : vec -> vec) (xmin xmax : arr R) (ns : nat) (bs : Z).
Let m := the_model a.
Hypothesis D : is_box (wm_domain m) = true.
Hypothesis BB : wm_bb m = false.
Hypothesis K : (0 < wm_k m)%nat.
Hypothesis BO : boxes_ok (wm_n m) xmin xmax.
Hypothesis C : consistent (wm_n m) xmin xmax.
Hypothesis NS : (0 < ns)%nat.
Hypothesis SO : forall b p, (b < alen xmin)%nat -> sub_of (wm_n m) p (the_box xmin xmax b) -> sound_on m f p.

Let samples := combine (a_rows xmin) (a_rows xmax).

Lemma refine_head : forall g source target, g <> FOther ->
  exists bss, Forall2 (fun p l => covers (wm_n m) l p /\ length l = ns) samples bss /\
  refine_box g a xmin xmax ns source target bs None =
    (let xmin' := mk_arr [wm_n m] (map fst (concat bss)) in
     let xmax' := mk_arr [wm_n m] (map snd (concat bss)) in
     let agg (red : list R -> R) (u : arr R) :=
      v <- reshape_first u (length samples * ns) ;
      let k := prodn (a_tail v) in
      Ok (mk_arr [k] (map (fun rows => map (fun j => red (map (fun r => nth j r 0) rows)) (seq 0 k)) (chunks (length samples) ns (a_rows v)))) in
    match g with
    | FUpper => u <- api_upper_box (Decomon m) xmin' xmax' bs 1 ; agg row_max u
    | FLower => l <- api_lower_box (Decomon m) xmin' xmax' bs 1 ; agg row_min l
    | FRange => _ <- get_range_box (Decomon m) xmin' xmax' bs 1 ; Err NotImplementedError
    | FAdv | FCheck =>
        match source with
        | None => Err TypeError
        | Some s =>
            r <- match g with
                 | FAdv => get_adv_box (Decomon m) xmin' xmax' s target bs 1
                 | _ => check_adv_box (Decomon m) xmin' xmax' s target bs
                 end ;
            v <- reshape_first (mk_arr [] (map (fun x => [x]) r)) (length samples) ;
            if negb (prodn (a_tail v) =? ns)%nat then Err ValueError
            else Ok (mk_arr [] (map (fun r => [row_max r]) (a_rows v)))
        end
    | FOther => Err NotImplementedError
    end).
Proof.
  intros g source target NG.
  destruct (split_all_ok (wm_n m) ns samples ltac:(apply BO) NS (samples_ok _ _ _ BO C)) as (bss & E & P). exists bss. split; [exact P|].
  unfold refine_box.
  assert (R1 : reshape xmin [wm_n m] = Ok (mk_arr [wm_n m] (a_rows xmin))) by (apply (reshape_same _ _ (wm_n m)); [cbn; lia|apply BO|apply BO]).
  assert (R2 : reshape xmax [wm_n m] = Ok (mk_arr [wm_n m] (a_rows xmax))) by (apply (reshape_same _ _ (wm_n m)); [cbn; lia|apply BO|apply BO]).
  assert (LE : (alen (mk_arr [wm_n m] (a_rows xmin)) =? alen (mk_arr [wm_n m] (a_rows xmax)))%nat = true) by (apply Nat.eqb_eq; apply BO).
  assert (NZ : (ns =? 0)%nat = false) by (apply Nat.eqb_neq; lia).
  unfold split_all in E.
  destruct g; try contradiction; rewrite box_model_ok by exact D; cbn [bind]; fold m; rewrite BB, R1; cbn [bind]; rewrite R2; cbn [bind]; rewrite LE, NZ; cbn [negb option_map a_rows]; fold samples; rewrite E; reflexivity.
Qed.

Lemma split_boxes_facts : forall bss, Forall2 (fun p l => covers (wm_n m) l p /\ length l = ns) samples bss ->
  let all := concat bss in
  length bss = alen xmin /\ length all = (alen xmin * ns)%nat /\ all <> [] /\ Forall (sample_ok (wm_n m)) all /\ Forall (sound_on m f) all /\
  forall b z, (b < alen xmin)%nat -> in_sample (wm_n m) (the_box xmin xmax b) z -> exists i, (i < ns)%nat /\ in_sample (wm_n m) (nth (b * ns + i) all ([], [])) z.
Proof.
  intros bss P all. destruct (combine_ne _ _ _ BO) as [Ls Ne]. fold samples in Ls, Ne.
  pose proof (Forall2_len _ _ _ P) as LP. rewrite Ls in LP.
  assert (NB : forall b, (b < alen xmin)%nat -> covers (wm_n m) (nth b bss []) (the_box xmin xmax b) /\ length (nth b bss []) = ns).
  { intros b Hb. pose proof (Forall2_nth _ _ _ b ([], []) [] P ltac:(lia)) as X. unfold samples in X. rewrite (the_box_combine (wm_n m)) in X by exact BO. exact X. }
  assert (FL : Forall (fun l => length l = ns) bss).
  { apply Forall_forall. intros l I. apply In_nth with (d := []) in I. destruct I as [b [Hb <-]]. apply NB. lia. }
  assert (La : length all = (alen xmin * ns)%nat) by (unfold all; rewrite (concat_len ns) by exact FL; rewrite <- LP; reflexivity).
  assert (B0 : (0 < alen xmin)%nat) by apply BO.
  assert (SUB : forall p, In p all -> exists b, (b < alen xmin)%nat /\ sub_of (wm_n m) p (the_box xmin xmax b)).
  { intros p I. unfold all in I. apply in_concat in I. destruct I as [l [I J]]. apply In_nth with (d := []) in I. destruct I as [b [Hb <-]].
    exists b. split; [lia|]. destruct (NB b ltac:(lia)) as [[S _] _]. rewrite Forall_forall in S. apply S. exact J. }
  split; [lia|]. split; [exact La|]. split; [intro X; rewrite X in La; cbn in La; nia|].
  split; [apply Forall_forall; intros p I; destruct (SUB p I) as (b & _ & S); eapply sub_of_sample; exact S|].
  split; [apply Forall_forall; intros p I; destruct (SUB p I) as (b & Hb & S); exact (SO b p Hb S)|].
  intros b z Hb Z. destruct (NB b Hb) as [[_ CV] Lb]. destruct (CV z Z) as [p [I Pz]]. apply In_nth with (d := ([], [])) in I. destruct I as [i [Li Ep]]. rewrite Lb in Li.
  exists i. split; [exact Li|]. unfold all. rewrite (concat_nth ns) by (try assumption; lia). rewrite Ep. exact Pz.
Qed.

Lemma agg_value : forall (red : list R -> R) (u : arr R), rows_of (wm_k m) u -> alen u = (alen xmin * ns)%nat ->
  exists v, (v <- reshape_first u (length samples * ns) ;
      let k := prodn (a_tail v) in
      Ok (mk_arr [k] (map (fun rows => map (fun j => red (map (fun r => nth j r 0) rows)) (seq 0 k)) (chunks (length samples) ns (a_rows v))))) = Ok v /\
    a_tail v = [wm_k m] /\ alen v = alen xmin /\
    forall b j, (b < alen xmin)%nat -> (j < wm_k m)%nat -> exists l, cell v b j = red l /\ forall i, (i < ns)%nat -> In (cell u (b * ns + i) j) l.
Proof.
  intros red u RU LU. destruct (combine_ne _ _ _ BO) as [Ls Ne]. fold samples in Ls, Ne. rewrite Ls, <- LU.
  assert (B0 : (0 < alen xmin)%nat) by apply BO.
  rewrite (reshape_first_same u (wm_k m)) by (try assumption; rewrite LU; nia). cbn [bind a_tail a_rows prodn]. rewrite Nat.mul_1_r.
  eexists. split; [reflexivity|]. cbn [a_tail]. split; [reflexivity|]. split; [unfold alen at 1; cbn [a_rows]; rewrite map_length, chunks_length; reflexivity|].
  intros b j Hb Hj. unfold cell at 1. cbn [a_rows].
  set (F := fun rows : list (list R) => map (fun j0 => red (map (fun r => nth j0 r 0) rows)) (seq 0 (wm_k m))).
  rewrite (nth_indep _ [] (F [])) by (rewrite map_length, chunks_length; exact Hb). rewrite (map_nth F). unfold F. rewrite nth_tab by exact Hj.
  eexists. split; [reflexivity|]. intros i Hi. apply in_map_iff. exists (nth (b * ns + i) (a_rows u) []). split; [reflexivity|].
  rewrite <- (chunks_nth (alen xmin) ns (a_rows u) b i []) by assumption. apply nth_In.
  pose proof (chunks_rows (alen xmin) ns (a_rows u) LU) as CR. rewrite Forall_forall in CR. rewrite CR; [exact Hi|]. apply nth_In. rewrite chunks_length. exact Hb.
Qed.

Lemma range_all : forall bss, Forall2 (fun p l => covers (wm_n m) l p /\ length l = ns) samples bss ->
  exists u l, get_range_box (Decomon m) (mk_arr [wm_n m] (map fst (concat bss))) (mk_arr [wm_n m] (map snd (concat bss))) bs 1 = Ok (u, l) /\
    rows_of (wm_k m) u /\ rows_of (wm_k m) l /\ alen u = (alen xmin * ns)%nat /\ alen l = (alen xmin * ns)%nat /\
    forall b i z j, (b < alen xmin)%nat -> (i < ns)%nat -> in_sample (wm_n m) (nth (b * ns + i) (concat bss) ([], [])) z -> (j < wm_k m)%nat -> cell l (b * ns + i) j <= f z j <= cell u (b * ns + i) j.
Proof.
  intros bss P. destruct (split_boxes_facts bss P) as (LB & La & NE & SK & SS & CV). set (all := concat bss) in *.
  destruct (samples_boxes_ok (wm_n m) [wm_n m] all ltac:(apply BO) NE SK) as [BO' C'].
  unfold get_range_box. rewrite (consistent_dec (wm_n m)) by assumption. cbn [bind]. rewrite box_model_ok by exact D. cbn [bind the_model].
  rewrite sub_boxes_one by (unfold small; lia). cbn [bind]. rewrite to_samples_ok by (try assumption; rewrite BB; reflexivity). cbn [bind a_rows]. rewrite combine_map_fst_snd.
  destruct (range_eval_sound m f all SS) as (us & ls & EV & L1 & L2 & X).
  assert (RR : (if (0 <? bs)%Z then rs <- mapR (range_call m) (slices (Z.to_nat bs) all) ; u <- np_concat (map fst rs) ; l <- np_concat (map snd rs) ; Ok (u, l) else range_eval m all)
    = Ok (mk_arr (wm_out m) us, mk_arr (wm_out m) ls)).
  { destruct (0 <? bs)%Z eqn:Eb; [|exact EV]. apply Z.ltb_lt in Eb. rewrite range_batch; try assumption; [apply BO|lia]. }
  cbn [bind] in RR |- *. rewrite RR. cbn [bind fst snd]. unfold reduce_split. cbn [Nat.ltb Nat.leb bind]. eexists _, _. split; [reflexivity|].
  split; [unfold rows_of; cbn [a_rows]; apply Forall_forall; intros r I; apply In_nth with (d := []) in I; destruct I as [i [Hi <-]]; apply (X i); lia|].
  split; [unfold rows_of; cbn [a_rows]; apply Forall_forall; intros r I; apply In_nth with (d := []) in I; destruct I as [i [Hi <-]]; apply (X i); lia|].
  split; [unfold alen at 1; cbn [a_rows]; lia|]. split; [unfold alen at 1; cbn [a_rows]; lia|].
  intros b i z j Hb Hi Z Hj. assert (H : (b * ns + i < length all)%nat) by (rewrite La; nia). destruct (X _ H) as (_ & _ & Y). unfold cell; cbn [a_rows]. apply Y; assumption.
Qed.

Theorem refine_box_upper : exists u, refine_box FUpper a xmin xmax ns None None bs None = Ok u /\ a_tail u = [wm_k m] /\ alen u = alen xmin /\
  forall b z j, (b < alen xmin)%nat -> in_sample (wm_n m) (the_box xmin xmax b) z -> (j < wm_k m)%nat -> f z j <= cell u b j.
Proof.
  destruct (refine_head FUpper None None ltac:(discriminate)) as (bss & P & E). cbv zeta in E.
  destruct (range_all bss P) as (u & l & ER & RU & RL & LU & LL & X). unfold api_upper_box in E. rewrite ER in E. cbn [bind fst] in E.
  destruct (agg_value row_max u RU LU) as (v & EV & T & L & H). cbv zeta in EV. rewrite EV in E. exists v. split; [exact E|]. split; [exact T|]. split; [exact L|].
  intros b z j Hb Z Hj. destruct (split_boxes_facts bss P) as (_ & _ & _ & _ & _ & CV). destruct (CV b z Hb Z) as (i & Hi & Zi).
  destruct (H b j Hb Hj) as (lst & -> & IN). eapply Rle_trans; [apply (X b i z j Hb Hi Zi Hj)|]. apply row_max_ge, IN. exact Hi.
Qed.

Theorem refine_box_lower : exists l, refine_box FLower a xmin xmax ns None None bs None = Ok l /\ a_tail l = [wm_k m] /\ alen l = alen xmin /\
  forall b z j, (b < alen xmin)%nat -> in_sample (wm_n m) (the_box xmin xmax b) z -> (j < wm_k m)%nat -> cell l b j <= f z j.
Proof.
  destruct (refine_head FLower None None ltac:(discriminate)) as (bss & P & E). cbv zeta in E.
  destruct (range_all bss P) as (u & l & ER & RU & RL & LU & LL & X). unfold api_lower_box in E. rewrite ER in E. cbn [bind snd] in E.
  destruct (agg_value row_min l RL LL) as (v & EV & T & L & H). cbv zeta in EV. rewrite EV in E. exists v. split; [exact E|]. split; [exact T|]. split; [exact L|].
  intros b z j Hb Z Hj. destruct (split_boxes_facts bss P) as (_ & _ & _ & _ & _ & CV). destruct (CV b z Hb Z) as (i & Hi & Zi).
  destruct (H b j Hb Hj) as (lst & -> & IN). eapply Rle_trans; [|apply (X b i z j Hb Hi Zi Hj)]. apply row_min_le, IN. exact Hi.
Qed.

(** get_range_box is listed as accepted but always refused after the computation *)
Theorem refine_box_range : forall source target, refine_box FRange a xmin xmax ns source target bs None = Err NotImplementedError.
Proof.
  intros source target. destruct (refine_head FRange source target ltac:(discriminate)) as (bss & P & E). cbv zeta in E.
  destruct (range_all bss P) as (u & l & ER & _). rewrite ER in E. exact E.
Qed.

(** random splitting (the default) always fails *)
Theorem refine_box_random : forall g source target draws, g <> FOther -> (2 <= ns)%nat -> refine_box g a xmin xmax ns source target bs (Some draws) = Err ValueError.
Proof.
  intros g source target draws NG N2. unfold refine_box.
  assert (R1 : reshape xmin [wm_n m] = Ok (mk_arr [wm_n m] (a_rows xmin))) by (apply (reshape_same _ _ (wm_n m)); [cbn; lia|apply BO|apply BO]).
  assert (R2 : reshape xmax [wm_n m] = Ok (mk_arr [wm_n m] (a_rows xmax))) by (apply (reshape_same _ _ (wm_n m)); [cbn; lia|apply BO|apply BO]).
  assert (LE : (alen (mk_arr [wm_n m] (a_rows xmin)) =? alen (mk_arr [wm_n m] (a_rows xmax)))%nat = true) by (apply Nat.eqb_eq; apply BO).
  assert (NZ : (ns =? 0)%nat = false) by (apply Nat.eqb_neq; lia).
  destruct (combine_ne _ _ _ BO) as [Ls Ne]. fold samples in Ls, Ne.
  assert (E : mapR (fun q : nat * box => rsplit (option_map (fun d => d (fst q)) (Some draws)) (wm_n m) ns (snd q)) (combine (seq 0 (length samples)) samples) = Err ValueError).
  { destruct samples as [|p l]; [contradiction|]. cbn [length seq combine mapR option_map fst snd]. rewrite rsplit_random by exact N2. reflexivity. }
  destruct g; try contradiction; rewrite box_model_ok by exact D; cbn [bind]; fold m; rewrite BB, R1; cbn [bind]; rewrite R2; cbn [bind]; rewrite LE, NZ; cbn [negb a_rows]; fold samples; rewrite E; reflexivity.
Qed.

(** ** Adversarial scores: the labels of the samples are not repeated for the parts *)

Lemma adv_prefix : forall bss s target, Forall2 (fun p l => covers (wm_n m) l p /\ length l = ns) samples bss ->
  get_adv_box (Decomon m) (mk_arr [wm_n m] (map fst (concat bss))) (mk_arr [wm_n m] (map snd (concat bss))) s target bs 1 =
  (src <- prepare_labels s (alen xmin * ns) ; tgt <- prepare_opt target (alen xmin * ns) ; adv_batch m (concat bss) src tgt bs).
Proof.
  intros bss s target P. destruct (split_boxes_facts bss P) as (LB & La & NE & SK & SS & CV). set (all := concat bss) in *.
  destruct (samples_boxes_ok (wm_n m) [wm_n m] all ltac:(apply BO) NE SK) as [BO' C'].
  unfold get_adv_box. rewrite (consistent_dec (wm_n m)) by assumption. cbn [bind]. rewrite box_model_ok by exact D. cbn [bind the_model].
  rewrite sub_boxes_one by (unfold small; lia). cbn [bind]. rewrite to_samples_ok by (try assumption; apply andb_false_r). cbn [bind a_rows]. rewrite combine_map_fst_snd.
  assert (LX : alen (mk_arr [wm_n m] (map fst all)) = (alen xmin * ns)%nat) by (unfold alen at 1; cbn [a_rows]; rewrite map_length; exact La).
  rewrite LX. destruct (prepare_labels s (alen xmin * ns)) as [src|]; cbn [bind]; [|reflexivity].
  destruct (prepare_opt target (alen xmin * ns)) as [tgt|]; cbn [bind]; [|reflexivity].
  unfold repeat_rows. cbn [Nat.ltb Nat.leb bind].
  destruct tgt as [t|]; cbn [bind]; unfold adv_batch; cbv zeta; destruct (if (0 <? bs)%Z then _ else _); reflexivity.
Qed.

Lemma mask_flat : forall src, mask_ok (alen xmin) (wm_k m) src -> length (flatten src) = (alen xmin * wm_k m)%nat.
Proof. intros src (L & H & _). unfold flatten. rewrite (concat_len (wm_k m)) by exact H. unfold alen in L at 1. rewrite L. reflexivity. Qed.

(** the number of classes is not a multiple of n_split *)
Theorem refine_box_adv_classes : forall src target, mask_ok (alen xmin) (wm_k m) src -> (wm_k m mod ns <> 0)%nat ->
  refine_box FAdv a xmin xmax ns (Some (LArr src)) target bs None = Err ValueError.
Proof.
  intros src target MS ND. destruct (refine_head FAdv (Some (LArr src)) target ltac:(discriminate)) as (bss & P & E). cbv zeta in E. rewrite E. rewrite (adv_prefix bss _ _ P).
  cbn [prepare_labels]. unfold reshape_first. rewrite (mask_flat src MS). assert (B0 : (0 < alen xmin)%nat) by apply BO.
  replace (alen xmin * ns =? 0)%nat with false by (symmetry; apply Nat.eqb_neq; nia).
  rewrite Nat.mul_mod_distr_l by lia.
  replace (alen xmin * (wm_k m mod ns) =? 0)%nat with false by (symmetry; apply Nat.eqb_neq; nia). reflexivity.
Qed.

Lemma prepared : forall src, mask_ok (alen xmin) (wm_k m) src -> (wm_k m mod ns = 0)%nat ->
  exists s, prepare_labels (LArr src) (alen xmin * ns) = Ok s /\ flatten s = flatten src /\ alen s = (alen xmin * ns)%nat.
Proof.
  intros src MS ND. assert (B0 : (0 < alen xmin)%nat) by apply BO. cbn [prepare_labels]. unfold reshape_first. rewrite (mask_flat src MS).
  replace (alen xmin * ns =? 0)%nat with false by (symmetry; apply Nat.eqb_neq; nia).
  rewrite Nat.mul_mod_distr_l by lia. rewrite ND, Nat.mul_0_r, Nat.eqb_refl. eexists. split; [reflexivity|].
  rewrite Nat.div_mul_cancel_l by lia. split; [|unfold alen at 1; cbn [a_rows]; apply chunks_length].
  unfold flatten at 1; cbn [a_rows]. clear -MS ND BO NS.
  pose proof (Nat.div_mod (wm_k m) ns ltac:(lia)) as DM. rewrite ND, Nat.add_0_r in DM.
  assert (L : length (flatten src) = (alen xmin * ns * (wm_k m / ns))%nat) by (rewrite (mask_flat src MS); rewrite DM at 1; ring).
  revert L. generalize (flatten src) as l, (alen xmin * ns)%nat as c, (wm_k m / ns)%nat as k. intros l c. revert l. induction c as [|c IH]; intros l k L; cbn [chunks concat].
  - destruct l; [reflexivity|cbn in L; lia].
  - rewrite IH by (rewrite skipn_length; nia). apply firstn_skipn.
Qed.

Lemma reshape_back : forall src s, mask_ok (alen xmin) (wm_k m) src -> flatten s = flatten src -> reshape s [wm_k m] = Ok (mk_arr [wm_k m] (a_rows src)).
Proof.
  intros src s MS E. assert (R : reshape s [wm_k m] = reshape src [wm_k m]) by (unfold reshape; rewrite E; reflexivity). rewrite R.
  apply (reshape_same _ _ (wm_k m)); [cbn; lia|exact K|apply MS].
Qed.

(** the outputs of the parts *)
Lemma adv_outs : forall all, Forall (fun p => sound_on m f p /\ sample_ok (wm_n m) p) all -> all <> [] ->
  exists bnd, (outs <- mapR (fun p => wm_predict m (wm_domain m) (ztensor p) None) all ; mapR (unpack_output (wm_ibp m) (wm_affine m)) outs) = Ok bnd /\ length bnd = length all /\ (wm_ibp m = true \/ wm_affine m = true) /\
  forall i, (i < length all)%nat -> forall pairs x y,
    (wm_ibp m = true -> pair_max (wm_k m) pairs (ibp_upper (bn_u (nth i bnd (mk_bnds zero_t zero_t zero_t zero_t zero_t zero_t zero_t))) (bn_l (nth i bnd (mk_bnds zero_t zero_t zero_t zero_t zero_t zero_t zero_t)))) x) ->
    (wm_affine m = true -> pair_max (wm_k m) pairs (affine_upper (wm_n m) (bn_x (nth i bnd (mk_bnds zero_t zero_t zero_t zero_t zero_t zero_t zero_t))) (bn_wu (nth i bnd (mk_bnds zero_t zero_t zero_t zero_t zero_t zero_t zero_t))) (bn_bu (nth i bnd (mk_bnds zero_t zero_t zero_t zero_t zero_t zero_t zero_t))) (bn_wl (nth i bnd (mk_bnds zero_t zero_t zero_t zero_t zero_t zero_t zero_t))) (bn_bl (nth i bnd (mk_bnds zero_t zero_t zero_t zero_t zero_t zero_t zero_t)))) y) ->
    forall mode ts, wmode m = Some mode -> wm_predict m (wm_domain m) (ztensor (nth i all ([], []))) None = Ok ts -> is_score mode (wm_n m) (wm_k m) pairs ts (match wm_ibp m, wm_affine m with true, true => Rmin x y | true, false => x | _, _ => y end).
Proof.
  intros all F NE. rewrite Forall_forall in F.
  destruct (mapR_ok (fun p => wm_predict m (wm_domain m) (ztensor p) None) all) as [outs [EO LO]].
  { intros q I. destruct (F q I) as [(mode & ts & dc & _ & E & _) _]. eauto. }
  rewrite EO. cbn [bind]. destruct (mapR_nth _ _ _ EO) as [_ NO].
  destruct (mapR_ok (unpack_output (wm_ibp m) (wm_affine m)) outs) as [bnd [EB LB]].
  { intros ts I. apply In_nth with (d := []) in I. destruct I as [i [Hi <-]]. rewrite LO in Hi.
    assert (IN : In (nth i all ([], [])) all) by (apply nth_In; exact Hi). destruct (F _ IN) as (A & B).
    destruct (unpack_sound m f _ _ A B (NO i ([], []) [] Hi)) as (b & E & _). eauto. }
  exists bnd. split; [exact EB|]. split; [lia|]. split.
  { destruct all as [|q all]; [contradiction|]. destruct (F q (or_introl eq_refl)) as [(mode & ts & dc & M & _) _]. unfold wmode in M. destruct (wm_ibp m), (wm_affine m); auto; discriminate. }
  destruct (mapR_nth _ _ _ EB) as [_ NB]. intros i Hi pairs x y PX PY mode ts M E.
  assert (IN : In (nth i all ([], [])) all) by (apply nth_In; exact Hi). destruct (F _ IN) as (A & B).
  pose proof (NO i ([], []) [] Hi) as N1. rewrite E in N1. injection N1 as N1.
  destruct (unpack_sound m f _ _ A B E) as (b & Eb & _ & S). pose proof (NB i [] (mk_bnds zero_t zero_t zero_t zero_t zero_t zero_t zero_t) ltac:(lia)) as N2. rewrite <- N1, Eb in N2. injection N2 as N2. rewrite <- N2 in PX, PY.
  apply (S mode); assumption.
Qed.

(** several samples: refused *)
Theorem refine_box_adv_samples : forall src, mask_ok (alen xmin) (wm_k m) src -> (2 <= ns)%nat -> (2 <= alen xmin)%nat -> (bs <= 0)%Z ->
  refine_box FAdv a xmin xmax ns (Some (LArr src)) None bs None = Err ValueError.
Proof.
  intros src MS N2 B2 BS. destruct (Nat.eq_dec (wm_k m mod ns) 0) as [ND|ND]; [|apply refine_box_adv_classes; assumption].
  destruct (refine_head FAdv (Some (LArr src)) None ltac:(discriminate)) as (bss & P & E). cbv zeta in E. rewrite E. rewrite (adv_prefix bss _ _ P).
  destruct (prepared src MS ND) as (s & ES & FS & LS). rewrite ES. cbn [bind prepare_opt]. unfold adv_batch. destruct (0 <? bs)%Z eqn:EB; [apply Z.ltb_lt in EB; lia|].
  destruct (split_boxes_facts bss P) as (LB & La & NE & SK & SS & CV). set (all := concat bss) in *.
  assert (FA : Forall (fun p => sound_on m f p /\ sample_ok (wm_n m) p) all).
  { rewrite Forall_forall in SK, SS. apply Forall_forall. intros p I. split; [apply SS|apply SK]; exact I. }
  destruct (adv_outs all FA NE) as (bnd & EBn & LBn & M0 & _).
  unfold adv_eval. rewrite BB. cbv zeta.
  destruct (mapR (fun p => wm_predict m (wm_domain m) (ztensor p) None) all) as [outs|]; [|discriminate]. cbn [bind] in EBn |- *. rewrite EBn. cbn [bind].
  assert (PE : forall g : bnds -> mat, penalised (wm_k m) (map g bnd) s None = Err ValueError).
  { intro g. unfold penalised.
    destruct (reshape (mk_arr (a_tail s) (map (map (fun v => (1 - v)%Z)) (a_rows s))) [wm_k m]) as [t|] eqn:ET.
    2:{ unfold reshape in ET. destruct (prodn [wm_k m] =? 0)%nat; [inversion ET; reflexivity|]. destruct (_ mod _ =? 0)%nat; [discriminate|]. inversion ET; reflexivity. }
    cbn [bind]. rewrite (reshape_back src s MS FS). cbn [bind a_rows].
    assert (LT : length (a_rows t) = alen xmin).
    { unfold reshape in ET. cbn [prodn] in ET. rewrite Nat.mul_1_r in ET.
      assert (FL : length (flatten (mk_arr (a_tail s) (map (map (fun v => (1 - v)%Z)) (a_rows s)))) = (alen xmin * wm_k m)%nat).
      { rewrite <- (mask_flat src MS), <- FS. unfold flatten; cbn [a_rows]. rewrite <- concat_map, map_length. reflexivity. }
      rewrite FL in ET. replace (wm_k m =? 0)%nat with false in ET by (symmetry; apply Nat.eqb_neq; lia). rewrite Nat.mod_mul, Nat.eqb_refl, Nat.div_mul in ET by lia. inversion ET. cbn [a_rows]. apply chunks_length. }
    assert (LSR : length (a_rows src) = alen xmin) by apply MS.
    unfold bcast at 1. rewrite LT, LSR, Nat.eqb_refl. cbn [bind]. rewrite combine_length, LT, LSR, Nat.min_id, map_length, LBn, La.
    replace (alen xmin =? alen xmin * ns)%nat with false by (symmetry; apply Nat.eqb_neq; nia). replace (alen xmin =? 1)%nat with false by (symmetry; apply Nat.eqb_neq; lia). reflexivity. }
  destruct (wm_ibp m).
  - rewrite PE. reflexivity.
  - cbn [bind]. destruct (wm_affine m); [|destruct M0; discriminate]. rewrite PE. reflexivity.
Qed.

Theorem refine_box_adv_one : forall src, mask_ok 1 (wm_k m) src -> alen xmin = 1%nat -> (wm_k m mod ns = 0)%nat -> (bs <= 0)%Z ->
  exists v, refine_box FAdv a xmin xmax ns (Some (LArr src)) None bs None = Ok (mk_arr [] [[v]]) /\
  forall z t s, in_sample (wm_n m) (the_box xmin xmax 0) z -> (t < wm_k m)%nat -> (s < wm_k m)%nat -> pair_of src None 0 t s -> f z t - f z s <= v.
Proof.
  intros src MS0 A1 ND BS. assert (MS : mask_ok (alen xmin) (wm_k m) src) by (rewrite A1; exact MS0).
  destruct (refine_head FAdv (Some (LArr src)) None ltac:(discriminate)) as (bss & P & E). cbv zeta in E. rewrite E. rewrite (adv_prefix bss _ _ P).
  destruct (prepared src MS ND) as (s & ES & FS & LS). rewrite ES. cbn [bind prepare_opt]. unfold adv_batch. destruct (0 <? bs)%Z eqn:EB; [apply Z.ltb_lt in EB; lia|].
  destruct (split_boxes_facts bss P) as (LB & La & NE & SK & SS & CV). set (all := concat bss) in *.
  destruct src as [tl rows]. destruct MS0 as (L1 & RW & V01). unfold alen in L1; cbn [a_rows] in L1. destruct rows as [|row [|? ?]]; try discriminate. clear L1.
  unfold rows_of in RW; cbn [a_rows] in RW. inversion RW as [|? ? LR _]; subst.
  assert (FR : flatten s = row) by (rewrite FS; unfold flatten; cbn [a_rows concat]; apply app_nil_r).
  assert (R01 : row01 (wm_k m) row) by (split; [exact LR|]; intros j Hj; apply (V01 0%nat j); [lia|exact Hj]).
  set (items := map (fun p => (p, (row, @None (list Z)))) all : list item).
  assert (FI : Forall (item_ok m f) items).
  { rewrite Forall_forall in SK, SS. apply Forall_forall. intros q I. apply in_map_iff in I. destruct I as [p [<- I]]. split; [apply SS; exact I|]. split; [apply SK; exact I|]. split; [exact R01|exact Logic.I]. }
  assert (NI : items <> []) by (unfold items; destruct all; [contradiction|discriminate]).
  assert (I1 : map fst items = all) by (unfold items; rewrite map_map; apply map_id).
  assert (I2 : map (fun q : item => fst (snd q)) items = repeat row (length all)) by (unfold items; rewrite map_map; cbn [fst snd]; symmetry; clear; induction all; cbn; [reflexivity|f_equal; assumption]).
  destruct (adv_eval_spec m f items [wm_k m] [] None BB K NI FI) as (r & ER & F2).
  { unfold tgt_rows. unfold items. rewrite map_map, map_length. cbn [snd]. clear. induction all; cbn; [reflexivity|f_equal; assumption]. }
  rewrite I1, I2 in ER. cbn [option_map] in ER.
  assert (FA : Forall (fun p => sound_on m f p /\ sample_ok (wm_n m) p) all).
  { rewrite Forall_forall in SK, SS. apply Forall_forall. intros p I. split; [apply SS|apply SK]; exact I. }
  destruct (adv_outs all FA NE) as (bnd & EBn & LBn & _).
  assert (EQ : adv_eval m all s None = adv_eval m all (mk_arr [wm_k m] (repeat row (length all))) None).
  { unfold adv_eval. rewrite BB. cbv zeta. destruct (mapR (fun p => wm_predict m (wm_domain m) (ztensor p) None) all) as [outs|]; [|discriminate]. cbn [bind] in EBn |- *. rewrite EBn. cbn [bind].
    assert (PE : forall g : bnds -> mat, penalised (wm_k m) (map g bnd) s None = penalised (wm_k m) (map g bnd) (mk_arr [wm_k m] (repeat row (length all))) None).
    { intro g. rewrite <- LBn, <- (map_length g bnd). apply penalised_one; try assumption. intro X. apply map_eq_nil in X. subst bnd. cbn in LBn. destruct all; [contradiction|discriminate]. }
    rewrite !PE. reflexivity. }
  rewrite EQ, ER. cbn [bind].
  pose proof (Forall2_len _ _ _ F2) as LF. unfold items in LF at 1. rewrite map_length, La, A1, Nat.mul_1_l in LF.
  destruct (combine_ne _ _ _ BO) as [Ls Ne]. fold samples in Ls, Ne. rewrite Ls, A1.
  assert (FLT : flatten (mk_arr [] (map (fun x : R => [x]) r)) = r) by (unfold flatten; cbn [a_rows]; clear; induction r; cbn; [reflexivity|f_equal; assumption]).
  unfold reshape_first. rewrite FLT. cbn [Nat.eqb]. rewrite Nat.mod_1_r, Nat.div_1_r. cbn [Nat.eqb bind chunks a_tail a_rows prodn]. rewrite Nat.mul_1_r, <- LF, Nat.eqb_refl. cbn [negb].
  rewrite firstn_all2 by lia. cbn [map]. eexists. split; [reflexivity|].
  intros z t s0 Z Ht Hs PR. destruct (CV 0%nat z ltac:(lia) Z) as (i & Hi & Zi). cbn [Nat.mul Nat.add] in Zi.
  assert (Hi' : (i < length items)%nat) by (unfold items; rewrite map_length, La; nia).
  pose proof (Forall2_nth _ _ _ i (([], []), (row, None)) 0 F2 Hi') as SC.
  assert (EI : nth i items (([], []), (row, None)) = (nth i all ([], []), (row, None))) by (unfold items; apply (map_nth (fun p => (p, (row, None)))) ).
  rewrite EI in SC. rewrite Forall_forall in SS. assert (SI : sound_on m f (nth i all ([], []))) by (apply SS, nth_In; rewrite La; nia).
  pose proof (score_sound m f (nth i all ([], []), (row, None)) (nth i r 0) SI SC z t s0 Zi Ht Hs) as LE. eapply Rle_trans; [apply LE|].
  - destruct PR as [P1 P2]. unfold cellz in P1, P2. cbn [a_rows nth] in P1, P2. unfold row_pair. cbn [fst snd]. split; [exact P1|exact P2].
  - apply row_max_ge, nth_In. lia.
Qed.

(** the same for check_adv_box *)
Theorem refine_box_check_classes : forall src target, mask_ok (alen xmin) (wm_k m) src -> (wm_k m mod ns <> 0)%nat ->
  refine_box FCheck a xmin xmax ns (Some (LArr src)) target bs None = Err ValueError.
Proof.
  intros src target MS ND. destruct (refine_head FCheck (Some (LArr src)) target ltac:(discriminate)) as (bss & P & E). cbv zeta in E. rewrite E.
  destruct (split_boxes_facts bss P) as (LB & La & NE & SK & SS & CV). set (all := concat bss) in *.
  destruct (samples_boxes_ok (wm_n m) [wm_n m] all ltac:(apply BO) NE SK) as [BO' C'].
  unfold check_adv_box. rewrite (consistent_dec (wm_n m)) by assumption. cbn [bind]. rewrite box_model_ok by exact D. cbn [bind the_model].
  rewrite to_samples_ok by (try assumption; rewrite BB; reflexivity). cbn [bind].
  assert (LX : alen (mk_arr [wm_n m] (map fst all)) = (alen xmin * ns)%nat) by (unfold alen at 1; cbn [a_rows]; rewrite map_length; exact La).
  rewrite LX. cbn [prepare_labels]. unfold reshape_first at 1. rewrite (mask_flat src MS). assert (B0 : (0 < alen xmin)%nat) by apply BO.
  replace (alen xmin * ns =? 0)%nat with false by (symmetry; apply Nat.eqb_neq; nia).
  rewrite Nat.mul_mod_distr_l by lia.
  replace (alen xmin * (wm_k m mod ns) =? 0)%nat with false by (symmetry; apply Nat.eqb_neq; nia). reflexivity.
Qed.

End Refine.

(** an unknown function name *)
Theorem refine_box_other : forall a xmin xmax ns s t bs d, refine_box FOther a xmin xmax ns s t bs d = Err NotImplementedError.
Proof. reflexivity. Qed.
