From Coq Require Import String List ZArith QArith Qreals Reals Bool Lia Lra.
From Verif Require Import CombineModel NumericSpec FloatModel MeanVarModel MeanVarSpec MeanVarProofs PerKeyModel PerKeyProofs.
From Verif Require Import ZScoreModel ZScoreSpec.
Import ListNotations.
Open Scope R_scope.

Lemma q2r_sum l : Q2R (q_sum l) = r_sum (map Q2R l).
Proof.
  induction l as [|x l IH]; cbn; [unfold Q2R; cbn; lra|]. rewrite Q2R_plus. f_equal. exact IH.
Qed.
Lemma q2r_len (l : list Q) : Q2R (q_len l) = INR (length l).
Proof. unfold q_len, Q2R, inject_Z. cbn. rewrite INR_IZR_INZ. field. Qed.
Lemma len_nonzero {X} (l : list X) : l <> [] -> INR (length l) <> 0.
Proof. destruct l; [congruence|]. intros _. apply not_0_INR. discriminate. Qed.
Lemma q_len_nonzero (l : list Q) : l <> [] -> ~ (q_len l == 0)%Q.
Proof. intros H E. apply Qeq_eqR in E. rewrite q2r_len in E. apply (len_nonzero l H). rewrite E. unfold Q2R; cbn; lra. Qed.

Lemma q2r_mean l : l <> [] -> Q2R (mean_of l) = r_mean (map Q2R l).
Proof.
  intros H. unfold mean_of, r_mean. rewrite Q2R_div by (apply q_len_nonzero, H).
  rewrite q2r_sum, q2r_len, map_length. reflexivity.
Qed.
Lemma q2r_var l : l <> [] -> Q2R (var_of l) = r_var (map Q2R l).
Proof.
  intros H. unfold var_of, r_var. rewrite Q2R_div by (apply q_len_nonzero, H).
  rewrite q2r_sum, q2r_len, !map_length, !map_map. do 2 f_equal. apply map_ext. intros x.
  rewrite Q2R_mult, Q2R_minus, (q2r_mean l H). reflexivity.
Qed.

(** Affine maps. *)
Lemma r_sum_affine a b (l : list R) : r_sum (map (fun x => (x - b) * a) l) = (r_sum l - INR (length l) * b) * a.
Proof.
  induction l as [|x l IH]; [cbn; lra|]. cbn [map r_sum fold_right length] in *. fold (r_sum l) in *.
  fold (r_sum (map (fun x => (x - b) * a) l)). rewrite IH, S_INR. ring.
Qed.
Lemma r_sum_scale a (l : list R) f : r_sum (map (fun x => f x * a) l) = r_sum (map f l) * a.
Proof. unfold r_sum. induction l as [|x l IH]; cbn in *; [lra|]. rewrite IH. ring. Qed.

Lemma affine_mean a (l : list R) : l <> [] -> r_mean (map (fun x => (x - r_mean l) * a) l) = 0.
Proof.
  intros H. unfold r_mean at 1. rewrite r_sum_affine, map_length. unfold r_mean.
  pose proof (len_nonzero l H). field_simplify_eq; [ring|assumption].
Qed.
Lemma affine_var a (l : list R) : l <> [] -> r_var (map (fun x => (x - r_mean l) * a) l) = r_var l * (a * a).
Proof.
  intros H. unfold r_var at 1. rewrite (affine_mean a l H), map_map, map_length. unfold r_var.
  rewrite (map_ext _ (fun x => (x - r_mean l) * (x - r_mean l) * (a * a))) by (intros; ring).
  rewrite r_sum_scale. unfold Rdiv. ring.
Qed.

Lemma sq_sum_nonneg f (l : list R) : 0 <= r_sum (map (fun x => f x * f x) l).
Proof. induction l as [|x l IH]; cbn; [lra|]. fold (r_sum (map (fun x => f x * f x) l)). pose proof (Rle_0_sqr (f x)). unfold Rsqr in *. lra. Qed.
Lemma sq_sum_zero f (l : list R) : r_sum (map (fun x => f x * f x) l) = 0 -> forall x, In x l -> f x = 0.
Proof.
  induction l as [|y l IH]; intros E x Hx; [destruct Hx|]. cbn in E. fold (r_sum (map (fun x => f x * f x) l)) in E.
  pose proof (Rle_0_sqr (f y)) as A. unfold Rsqr in A. pose proof (sq_sum_nonneg f l) as B.
  destruct Hx as [<-|Hx].
  - apply Rsqr_0_uniq. unfold Rsqr. lra.
  - apply IH; [lra|exact Hx].
Qed.
Lemma r_var_nonneg l : l <> [] -> 0 <= r_var l.
Proof.
  intros H. unfold r_var. apply Rmult_le_pos; [apply sq_sum_nonneg|].
  apply Rlt_le, Rinv_0_lt_compat. destruct l; [congruence|]. apply lt_0_INR. cbn. lia.
Qed.

(** The scaled values of a list, given its own mean and variance. *)
Lemma z_list m v (vs : list Q) : vs <> [] -> (m == mean_of vs)%Q -> (v == var_of vs)%Q ->
  let zs := map (z_value m v) vs in
  (r_var (map Q2R vs) <> 0 -> r_mean zs = 0 /\ r_var zs = 1) /\
  (r_var (map Q2R vs) = 0 -> forall z, In z zs -> z = 0).
Proof.
  intros H Em Ev zs.
  assert (H' : map Q2R vs <> []) by (destruct vs; [congruence|discriminate]).
  pose proof (r_var_nonneg _ H') as NN.
  assert (Z : forall x, z_value m v x
              = if Req_EM_T (sqrt (r_var (map Q2R vs))) 0 then Q2R x - r_mean (map Q2R vs)
                else (Q2R x - r_mean (map Q2R vs)) / sqrt (r_var (map Q2R vs))).
  { intros x. unfold z_value. rewrite (Qeq_eqR _ _ Em), (Qeq_eqR _ _ Ev), q2r_mean, q2r_var by assumption. reflexivity. }
  split; intros V.
  - set (sd := sqrt (r_var (map Q2R vs))) in *.
    assert (S : sd <> 0) by (unfold sd; intros E; apply sqrt_eq_0 in E; lra).
    assert (E : zs = map (fun x => (x - r_mean (map Q2R vs)) * (1 / sd)) (map Q2R vs)).
    { unfold zs. rewrite map_map. apply map_ext. intros x. rewrite Z. destruct (Req_EM_T sd 0); [contradiction|]. field. exact S. }
    rewrite E. split; [apply affine_mean, H'|]. rewrite (affine_var _ _ H').
    assert (Q : sd * sd = r_var (map Q2R vs)) by (apply sqrt_def; exact NN).
    rewrite <- Q. field. exact S.
  - intros z Hz. unfold zs in Hz. apply in_map_iff in Hz as (x & <- & Hx). rewrite Z, V, sqrt_0.
    destruct (Req_EM_T 0 0) as [_|N]; [|contradiction N; reflexivity].
    unfold r_var in V. apply (sq_sum_zero (fun y => y - r_mean (map Q2R vs)) (map Q2R vs)).
    + apply Rmult_integral in V as [V|V]; [exact V|].
      exfalso. revert V. apply Rinv_neq_0_compat, len_nonzero, H'.
    + apply in_map, Hx.
Qed.

(** All values equal iff the variance vanishes. *)
Lemma r_var_zero_iff l : l <> [] -> (r_var l = 0 <-> forall x y, In x l -> In y l -> x = y).
Proof.
  intros H. split.
  - intros V x y Hx Hy. unfold r_var in V. apply Rmult_integral in V as [V|V].
    + pose proof (sq_sum_zero (fun z => z - r_mean l) l V) as A. pose proof (A x Hx). pose proof (A y Hy). cbv beta in *. lra.
    + exfalso. revert V. apply Rinv_neq_0_compat, len_nonzero, H.
  - intros A. destruct l as [|c l]; [congruence|]. assert (M : r_mean (c :: l) = c).
    { unfold r_mean. replace (r_sum (c :: l)) with (INR (length (c :: l)) * c).
      - field. apply len_nonzero, H.
      - assert (B : forall x, In x (c :: l) -> x = c) by (intros x Hx; apply A; [exact Hx|left; reflexivity]).
        revert B. generalize (c :: l). clear. intros l B. induction l as [|x l IH]; [cbn; lra|].
        cbn [r_sum fold_right length] in *. fold (r_sum l) in *. rewrite S_INR, <- IH by (intros y Hy; apply B; right; exact Hy).
        rewrite (B x) by (left; reflexivity). ring. }
    unfold r_var. rewrite M. replace (r_sum _) with 0; [unfold Rdiv; ring|].
    assert (B : forall x, In x (c :: l) -> x = c) by (intros x Hx; apply A; [exact Hx|left; reflexivity]).
    revert B. generalize (c :: l). intros k B. symmetry. induction k as [|x k IH]; [reflexivity|].
    cbn. fold (r_sum (map (fun x => (x - c) * (x - c)) k)). rewrite IH by (intros y Hy; apply B; right; exact Hy).
    rewrite (B x) by (left; reflexivity). ring.
Qed.

Lemma z_score_spec (s : sched (sched (list fl))) :
  let vs := finites (rows_of s) in vs <> [] ->
  exists z, (forall x, scale_to_z_score s x = Some (z x)) /\
    ((exists x y, In x vs /\ In y vs /\ ~ (x == y)%Q) -> r_mean (map z vs) = 0 /\ r_var (map z vs) = 1) /\
    ((forall x y, In x vs -> In y vs -> (x == y)%Q) -> forall x, In x vs -> z x = 0).
Proof.
  intros vs H. destruct (mean_and_var_exact s H) as (m & v & E & Em & Ev). fold vs in Em, Ev.
  exists (z_value m v). split; [intros x; unfold scale_to_z_score; rewrite E; reflexivity|].
  destruct (z_list m v vs H Em Ev) as [A B].
  assert (H' : map Q2R vs <> []) by (destruct vs; [congruence|discriminate]).
  split.
  - intros (x & y & Hx & Hy & N). apply A. intros V.
    pose proof (proj1 (r_var_zero_iff _ H') V (Q2R x) (Q2R y) (in_map _ _ _ Hx) (in_map _ _ _ Hy)) as C.
    apply eqR_Qeq in C. contradiction.
  - intros C x Hx. apply B; [|apply in_map, Hx]. apply (r_var_zero_iff _ H').
    intros a b Ha Hb. apply in_map_iff in Ha as (x1 & <- & H1). apply in_map_iff in Hb as (x2 & <- & H2).
    apply Qeq_eqR, C; assumption.
Qed.

(** Scaling is increasing. *)
Lemma z_score_mono (s : sched (sched (list fl))) x y zx zy :
  scale_to_z_score s x = Some zx -> scale_to_z_score s y = Some zy -> (x <= y)%Q -> zx <= zy.
Proof.
  unfold scale_to_z_score. destruct (mean_and_var s) as [|[[m| |] [v| |]] [|]]; try discriminate.
  intros [= <-] [= <-] L. apply Qle_Rle in L. unfold z_value. destruct (Req_EM_T _ 0); [lra|].
  apply Rmult_le_compat_r; [|lra]. apply Rlt_le, Rinv_0_lt_compat. pose proof (sqrt_pos (Q2R v)). lra.
Qed.

Lemma z_score_per_key_unseen vocab results k x :
  List.length results = List.length vocab -> NoDup vocab -> vocab <> [] -> ~ In k vocab ->
  scale_to_z_score_per_key vocab results k x = Some (Q2R x).
Proof.
  intros HL ND NE NI. unfold scale_to_z_score_per_key.
  destruct (map_per_key_spec (fun _ => (Fin 0, Fin 0)) results vocab k HL ND NE) as [_ H].
  destruct (H NI) as (_ & ->). unfold z_value.
  replace (Q2R 0) with 0 by (unfold Q2R; cbn; lra). rewrite sqrt_0.
  destruct (Req_EM_T 0 0) as [_|N]; [f_equal; lra|contradiction N; reflexivity].
Qed.
