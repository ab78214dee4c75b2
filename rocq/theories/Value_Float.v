(** Integers as floating-point numbers: a number with at most [prec] binary digits is kept exactly. *)
From Coq Require Import Floats.SpecFloat.
From Verif Require Import Base Text_Model Tok_Model TypeTable TypeSys_Model Value_Model Value_Spec Value_Proofs Value_Proofs2 Value_Proofs3.

Lemma digits_shift d m : Zpos (digits2_pos (shift_pos d m)) = (Zpos (digits2_pos m) + Zpos d)%Z.
Proof.
  unfold shift_pos. induction d as [|d IH] using Pos.peano_ind; [cbn [Pos.iter nat_rect digits2_pos]; lia|].
  rewrite Pos.iter_succ. cbn [digits2_pos]. lia.
Qed.
Lemma shift_value d m : Zpos (shift_pos d m) = (Zpos m * 2 ^ Zpos d)%Z.
Proof.
  unfold shift_pos. induction d as [|d IH] using Pos.peano_ind; [cbn [Pos.iter]; lia|].
  rewrite Pos.iter_succ, Pos2Z.inj_succ, Z.pow_succ_r by lia. lia.
Qed.
Lemma digits_bound m : (Zpos m < 2 ^ Zpos (digits2_pos m) <= 2 * Zpos m)%Z.
Proof.
  induction m as [m IH|m IH|]; cbn [digits2_pos].
  - rewrite Pos2Z.inj_succ, Z.pow_succ_r by lia. lia.
  - rewrite Pos2Z.inj_succ, Z.pow_succ_r by lia. lia.
  - done.
Qed.
Lemma digits_small prec m : (0 <= prec)%Z -> (Zpos m < 2 ^ prec)%Z -> (Zpos (digits2_pos m) <= prec)%Z.
Proof.
  intros Hp H. pose proof (digits_bound m). destruct (Z.le_gt_cases (Zpos (digits2_pos m)) prec) as [|G]; [done|exfalso].
  assert (2 ^ (prec + 1) <= 2 ^ Zpos (digits2_pos m))%Z by (apply Z.pow_le_mono_r; lia). rewrite Z.pow_add_r in * by lia. lia.
Qed.
Lemma aux_exact prec emax s m e : (fexp prec emax (Zpos (digits2_pos m) + e) <= e)%Z -> (e <= emax - prec)%Z ->
  binary_round_aux prec emax s (Zpos m) e loc_Exact = S754_finite s m e.
Proof.
  intros Hf He. assert (forall z, z = Zpos m -> shr_fexp prec emax z e loc_Exact = (shr_record_of_loc (Zpos m) loc_Exact, e)) as Hs.
  { intros z ->. unfold shr_fexp, shr. cbn [Zdigits2]. destruct (fexp prec emax (Zpos (digits2_pos m) + e) - e)%Z eqn:E; [done|lia|done]. }
  unfold binary_round_aux. rewrite Hs by done. cbn [shr_record_of_loc loc_of_shr_record shr_m round_nearest_even]. rewrite Hs by done. cbn [shr_record_of_loc shr_m].
  by rewrite (proj2 (Z.leb_le _ _)) by done.
Qed.
Lemma round_exact prec emax s m : (1 < prec)%Z -> (prec <= emax)%Z -> (Zpos m < 2 ^ prec)%Z ->
  exists m' k, binary_round prec emax s m 0 = S754_finite s m' (- k) /\ (0 <= k)%Z /\ Zpos m' = (Zpos m * 2 ^ k)%Z.
Proof.
  intros Hp He Hm. pose proof (digits_small prec m ltac:(lia) Hm) as Hd. unfold binary_round, shl_align.
  assert (fexp prec emax (Zpos (digits2_pos m) + 0) = (Zpos (digits2_pos m) - prec)%Z) as -> by (unfold fexp, emin; lia).
  destruct (Zpos (digits2_pos m) - prec - 0)%Z as [|p|d] eqn:E.
  - exists m, 0%Z. rewrite aux_exact by (unfold fexp, emin; lia). split_and!; [done|done|lia].
  - lia.
  - exists (shift_pos d m), (Zpos d). rewrite aux_exact.
    + split_and!; [|lia|apply shift_value]. f_equal. lia.
    + rewrite digits_shift. unfold fexp, emin. lia.
    + lia.
Qed.
Lemma int_of_round s m k a : (0 <= k)%Z -> Zpos m = (a * 2 ^ k)%Z -> (Z.abs a < 2 ^ 63)%Z -> int_of_fp (S754_finite s m (- k)) = Ok (if s then - a else a)%Z.
Proof.
  intros Hk Hm Ha. cbn [int_of_fp].
  assert ((if (0 <=? - k)%Z then (Zpos m * 2 ^ (- k))%Z else (Zpos m / 2 ^ (- - k))%Z) = a) as ->.
  { destruct (Z.leb_spec 0 (- k)).
    - assert (k = 0%Z) as -> by lia. rewrite Hm. cbn. lia.
    - rewrite Hm, Z.opp_involutive, Z.div_mul by (apply Z.pow_nonzero; lia). done. }
  unfold checked, in_range. replace (64 - 1)%Z with 63%Z by lia. destruct s; by rewrite (proj2 (Z.leb_le _ _)), (proj2 (Z.ltb_lt _ _)) by lia.
Qed.
Lemma normalize_back prec emax z : (1 < prec <= 63)%Z -> (prec <= emax)%Z -> (Z.abs z < 2 ^ prec)%Z -> int_of_fp (binary_normalize prec emax z 0 false) = Ok z.
Proof.
  intros Hp He Hz. assert (2 ^ prec <= 2 ^ 63)%Z by (apply Z.pow_le_mono_r; lia). destruct z as [|p|p]; cbn [binary_normalize]; [done| |].
  - destruct (round_exact prec emax false p) as (m & k & -> & Hk & Hm); [lia..|]. rewrite (int_of_round _ _ _ (Zpos p)); [done|done|done|lia].
  - destruct (round_exact prec emax true p) as (m & k & -> & Hk & Hm); [lia..|]. rewrite (int_of_round _ _ _ (Zpos p)); [done|done|done|lia].
Qed.
Lemma normalize_is prec emax z : (1 < prec)%Z -> (prec <= emax)%Z -> (Z.abs z < 2 ^ prec)%Z -> is_integer (binary_normalize prec emax z 0 false) z.
Proof.
  intros Hp He Hz. destruct z as [|p|p]; cbn [binary_normalize]; [by left|right..].
  - destruct (round_exact prec emax false p) as (m & k & -> & Hk & Hm); [lia..|]. by exists m, k.
  - destruct (round_exact prec emax true p) as (m & k & -> & Hk & Hm); [lia..|]. by exists m, k.
Qed.
Lemma to_bool_truthy v : to_bool v = true <-> truthy v.
Proof.
  destruct v as [b|x|x|z|r|s]; cbn [to_bool truthy].
  - done.
  - destruct x; cbn [fp_nonzero]; split; intros H; try done. by destruct (H s).
  - destruct x; cbn [fp_nonzero]; split; intros H; try done. by destruct (H s).
  - rewrite negb_true_iff. apply Z.eqb_neq.
  - rewrite negb_true_iff. apply N.eqb_neq.
  - apply string_to_bool_nonfalsy.
Qed.

(** ** float in double and back *)
Lemma round_more prec emax s m e : let t := fexp prec emax (Zpos (digits2_pos m) + e) in (t <= e)%Z -> (t <= emax - prec)%Z ->
  exists m', binary_round prec emax s m e = S754_finite s m' t /\ Zpos m' = (Zpos m * 2 ^ (e - t))%Z.
Proof.
  intros t Ht He. unfold binary_round, shl_align. fold t. destruct (t - e)%Z as [|p|d] eqn:E.
  - assert (t = e) as Et by lia. exists m. rewrite aux_exact by (fold t; lia). rewrite Et, Z.sub_diag. split; [done|lia].
  - lia.
  - exists (shift_pos d m). rewrite aux_exact.
    + split; [done|]. rewrite shift_value. do 2 f_equal. lia.
    + rewrite digits_shift. replace (Zpos (digits2_pos m) + Zpos d + t)%Z with (Zpos (digits2_pos m) + e)%Z by lia. fold t. lia.
    + lia.
Qed.
Lemma iter_shr p m : forall m', Zpos m' = (Zpos m * 2 ^ Zpos p)%Z -> SpecFloat.iter_pos shr_1 p (shr_record_of_loc (Zpos m') loc_Exact) = shr_record_of_loc (Zpos m) loc_Exact.
Proof.
  assert (forall (A : Type) (f : A -> A) q x, SpecFloat.iter_pos f q x = Pos.iter f x q) as Hi.
  { intros A f. induction q as [q IH|q IH|]; intros x; cbn [SpecFloat.iter_pos Pos.iter]; [|by rewrite !IH|done].
    rewrite !IH. rewrite <- !Pos.iter_swap. done. }
  intros m0. rewrite Hi. revert m0. cbn [shr_record_of_loc]. induction p as [|p IH] using Pos.peano_ind; intros m' Hm.
  - assert (m' = xO m) as -> by lia. done.
  - rewrite Pos2Z.inj_succ, Z.pow_succ_r in Hm by lia. rewrite Pos.iter_succ_r.
    assert (exists q, m' = xO q /\ Zpos q = (Zpos m * 2 ^ Zpos p)%Z) as (q & -> & Hq).
    { assert (0 < Zpos m * 2 ^ Zpos p)%Z by (apply Z.mul_pos_pos; [lia|apply Z.pow_pos_nonneg; lia]).
      exists (Z.to_pos (Zpos m * 2 ^ Zpos p)). split; lia. }
    cbn [shr_1 orb]. by apply IH.
Qed.
Lemma round_less prec emax s m e m' k : (0 <= k)%Z -> Zpos m' = (Zpos m * 2 ^ k)%Z -> fexp prec emax (Zpos (digits2_pos m) + e) = e -> (e <= emax - prec)%Z ->
  binary_round prec emax s m' (e - k) = S754_finite s m e.
Proof.
  intros Hk Hm Hf He. destruct k as [|p|]; [|clear Hk|lia].
  - assert (m' = m) as -> by lia. rewrite Z.sub_0_r. destruct (round_more prec emax s m e) as (m2 & -> & E); rewrite ?Hf; [lia..|].
    f_equal. rewrite Hf, Z.sub_diag in E. lia.
  - assert (Zpos (digits2_pos m') = Zpos (digits2_pos m) + Zpos p)%Z as Hd.
    { rewrite <- digits_shift. do 2 f_equal. rewrite <- shift_value in Hm. congruence. }
    unfold binary_round, shl_align. rewrite Hd. replace (Zpos (digits2_pos m) + Zpos p + (e - Zpos p))%Z with (Zpos (digits2_pos m) + e)%Z by lia.
    rewrite Hf. replace (e - (e - Zpos p))%Z with (Zpos p) by lia.
    unfold binary_round_aux, shr_fexp at 1. cbn [Zdigits2]. rewrite Hd. replace (Zpos (digits2_pos m) + Zpos p + (e - Zpos p))%Z with (Zpos (digits2_pos m) + e)%Z by lia.
    rewrite Hf. replace (e - (e - Zpos p))%Z with (Zpos p) by lia. unfold shr at 1. rewrite (iter_shr p m) by done.
    cbn [shr_record_of_loc loc_of_shr_record shr_m round_nearest_even]. replace (e - Zpos p + Zpos p)%Z with e by lia.
    unfold shr_fexp. cbn [Zdigits2]. rewrite Hf, Z.sub_diag. cbn [shr shr_record_of_loc shr_m]. by rewrite (proj2 (Z.leb_le _ _)) by done.
Qed.
Lemma float_in_double x : valid_binary 24 128 x = true -> same_number x (d_of_float x) /\ f_of_double (d_of_float x) = x.
Proof.
  destruct x as [s|s| |s m e]; intros H; try (split; [by left|done]).
  cbn [valid_binary] in H. unfold bounded in H. apply andb_true_iff in H as [Hc He]. apply Z.leb_le in He.
  unfold canonical_mantissa in Hc. apply Zeq_bool_eq in Hc.
  assert (Zpos (digits2_pos m) + e - 24 <= e /\ -149 <= e)%Z as [Hd Hn] by (unfold fexp, emin in Hc; lia).
  assert (fexp 53 1024 (Zpos (digits2_pos m) + e) = Zpos (digits2_pos m) + e - 53)%Z as Ht by (unfold fexp, emin; lia).
  assert (forall (b : bool), binary_normalize 53 1024 (if s then Zneg m else Zpos m) e b = binary_round 53 1024 s m e) as N by (intros b; by destruct s).
  destruct (round_more 53 1024 s m e) as (m' & E & Hm); [lia..|]. rewrite Ht in E, Hm.
  set (k := (e - (Zpos (digits2_pos m) + e - 53))%Z) in *.
  replace (Zpos (digits2_pos m) + e - 53)%Z with (e - k)%Z in E by (unfold k; lia).
  assert (d_of_float (S754_finite s m e) = S754_finite s m' (e - k)) as ->.
  { unfold d_of_float, renorm. by rewrite N. }
  split; [right; exists s, m, e, k; split; [done|]; split; [unfold k; lia|]; eauto|].
  unfold f_of_double, renorm.
  assert (forall (b : bool), binary_normalize 24 128 (if s then Zneg m' else Zpos m') (e - k) b = binary_round 24 128 s m' (e - k)) as -> by (intros b; by destruct s).
  apply round_less; try done; unfold k; lia.
Qed.
