(** get_interior_point with a working solver: the Chebyshev linear program. *)
From Verif Require Import PyBase PyGraph M_champ Spec Spec_graph Spec_champ Spec_lp L_base L_lp L_halfspace L_champ L_champ2.
From Coq Require Import Lra Lia Permutation.
Set Implicit Arguments.
Open Scope R_scope.

Lemma sq_sum_nonneg (l : list R) : 0 <= rsum (map (fun x => x * x) l).
Proof. induction l as [|a l IH]; cbn [map]; rewrite ?rsum_nil, ?rsum_cons; [lra|]. nra. Qed.
Lemma sq_sum_in (l : list R) a : In a l -> a * a <= rsum (map (fun x => x * x) l).
Proof.
  induction l as [|b l IH]; [intros []|]. intros [<-|H]; cbn [map]; rewrite rsum_cons.
  - pose proof (sq_sum_nonneg l). lra.
  - specialize (IH H). nra.
Qed.
Lemma norm_ge h a : In a (normal h) -> Rabs a <= normal_norm h.
Proof.
  intros H. unfold normal_norm. rewrite <- sqrt_Rsqr_abs. apply sqrt_le_1_alt. unfold Rsqr. apply sq_sum_in; auto.
Qed.
Lemma norm_pos h : (exists a, In a (normal h) /\ a <> 0) -> 0 < normal_norm h.
Proof. intros (a & Ha & N). pose proof (norm_ge h _ Ha). pose proof (Rabs_pos_lt a N). lra. Qed.

Definition norm2 (u : list R) : R := rsum (map (fun x => x * x) u).
Lemma cauchy u v : length u = length v -> dot u v * dot u v <= norm2 u * norm2 v.
Proof.
  revert v. induction u as [|a u IH]; intros [|b v] H; try discriminate.
  - rewrite dot_nil_l. unfold norm2. cbn [map]. rewrite rsum_nil. lra.
  - rewrite dot_cons. unfold norm2 in *. cbn [map]. rewrite !rsum_cons. specialize (IH v). cbn in H.
    assert (E : length u = length v) by lia. specialize (IH E). pose proof (sq_sum_nonneg u) as U. pose proof (sq_sum_nonneg v) as V.
    set (d := dot u v) in *. set (p := rsum (map _ u)) in *. set (q := rsum (map _ v)) in *.
    (* 2 a b d <= a^2 q + b^2 p *)
    assert (K : 2 * (a * b * d) <= a * a * q + b * b * p).
    { apply Rsqr_incr_0_var; [|nra]. unfold Rsqr.
      assert ((a * b) * (a * b) * (d * d) <= (a * b) * (a * b) * (p * q)) by (apply Rmult_le_compat_l; [nra|lra]).
      assert (S : 0 <= (a * a * q - b * b * p) * (a * a * q - b * b * p)) by apply Rle_0_sqr.
      replace (2 * (a * b * d) * (2 * (a * b * d))) with (4 * (a * b * (a * b) * (d * d))) by ring.
      replace ((a * a * q + b * b * p) * (a * a * q + b * b * p)) with ((a * a * q - b * b * p) * (a * a * q - b * b * p) + 4 * (a * b * (a * b) * (p * q))) by ring. lra. }
    replace ((a * b + d) * (a * b + d)) with (a * a * (b * b) + 2 * (a * b * d) + d * d) by ring.
    replace ((a * a + p) * (b * b + q)) with (a * a * (b * b) + (a * a * q + b * b * p) + p * q) by ring. lra.
Qed.
Lemma dot_norms u v : length u = length v -> dot u v <= sqrt (norm2 u) * sqrt (norm2 v).
Proof.
  intros H. rewrite <- sqrt_mult; try apply sq_sum_nonneg. apply Rsqr_incr_0_var; [|apply sqrt_pos].
  rewrite Rsqr_sqrt; [unfold Rsqr; apply cauchy; auto|]. apply Rmult_le_pos; apply sq_sum_nonneg.
Qed.

(** The rows of the linear program. *)
Lemma cheb_rows hs : lp_rows (chebyshev_A hs) (chebyshev_b hs) = map (fun h => (normal h ++ [normal_norm h], - offset h)) hs.
Proof. unfold lp_rows, chebyshev_A, chebyshev_b. induction hs as [|h hs IH]; cbn; [auto|]. f_equal. apply IH. Qed.
Lemma cheb_shaped dim hs : (forall h, In h hs -> length (normal h) = dim) -> lp_shaped (chebyshev_c dim) (chebyshev_A hs) (chebyshev_b hs).
Proof.
  intros H. split; [unfold chebyshev_A, chebyshev_b; rewrite !map_length; auto|]. intros row Hr. apply in_map_iff in Hr as (h & <- & Hh).
  unfold chebyshev_c. rewrite !app_length, repeat_length, (H h Hh). reflexivity.
Qed.
Definition fits (hs : list halfspace) (x : list R) (r : R) : Prop := forall h, In h hs -> hval h x + normal_norm h * r <= 0.
Lemma cheb_feasible dim hs x r : (forall h, In h hs -> length (normal h) = dim) -> length x = dim ->
  (lp_feasible (chebyshev_c dim) (chebyshev_A hs) (chebyshev_b hs) (x ++ [r]) <-> fits hs x r).
Proof.
  intros Hd Hx. unfold lp_feasible. rewrite cheb_rows. split.
  - intros (_ & H) h Hh. specialize (H (normal h ++ [normal_norm h]) (- offset h)).
    rewrite dot_app in H by (rewrite Hd; auto). rewrite dot_cons, dot_nil_l in H. unfold hval.
    assert (dot (normal h) x + (normal_norm h * r + 0) <= - offset h); [|lra]. apply H. apply in_map_iff. eauto.
  - intros H. split; [unfold chebyshev_c; rewrite !app_length, repeat_length, Hx; auto|]. intros row bd Hin.
    apply in_map_iff in Hin as (h & E & Hh). inversion E; subst. rewrite dot_app by (rewrite Hd; auto). rewrite dot_cons, dot_nil_l.
    specialize (H h Hh). unfold hval in H. lra.
Qed.
Lemma dot_repeat0 n x : dot (repeat 0 n) x = 0.
Proof. revert x. induction n as [|n IH]; intros [|a x]; cbn [repeat]; rewrite ?dot_nil_l, ?dot_nil_r, ?dot_cons; try lra. rewrite IH. lra. Qed.
Lemma cheb_value dim x r : length x = dim -> dot (chebyshev_c dim) (x ++ [r]) = - r.
Proof. intros H. unfold chebyshev_c. rewrite dot_app by (rewrite repeat_length; auto). rewrite dot_repeat0, dot_cons, dot_nil_l. lra. Qed.
Lemma split_last (y : list R) dim : length y = length (chebyshev_c dim) -> exists x r, y = x ++ [r] /\ length x = dim /\ removelast y = x.
Proof.
  unfold chebyshev_c. rewrite app_length, repeat_length. cbn [length]. intros H.
  assert (N : y <> []) by (intros ->; cbn in H; lia). destruct (exists_last N) as (x & r & ->). exists x, r.
  rewrite app_length in H. cbn in H. rewrite removelast_last. repeat split; auto; lia.
Qed.

Lemma cheb_solvable dim hs : (forall h, In h hs -> length (normal h) = dim /\ exists a, In a (normal h) /\ a <> 0) ->
  exists x r, length x = dim /\ fits hs x r.
Proof.
  intros H. exists (repeat 0 dim).
  assert (Z : forall h, hval h (repeat 0 dim) = offset h).
  { intros h. unfold hval. replace (dot (normal h) (repeat 0 dim)) with 0; [lra|]. clear. generalize (normal h). induction dim as [|n IH]; intros [|a l]; cbn [repeat]; rewrite ?dot_nil_l, ?dot_nil_r, ?dot_cons; try lra.
    rewrite <- IH. lra. }
  assert (G : exists r, fits hs (repeat 0 dim) r).
  { clear -H Z. induction hs as [|h hs IH]; [exists 0; intros h []|]. destruct IH as (r & Hr); [intros; apply H; right; auto|].
    assert (P : 0 < normal_norm h) by (apply norm_pos; apply H; left; auto).
    exists (Rmin r (- offset h / normal_norm h)). intros h' [<-|Hh'].
    - rewrite Z. apply Rle_trans with (offset h + normal_norm h * (- offset h / normal_norm h)).
      + apply Rplus_le_compat_l. apply Rmult_le_compat_l; [lra|apply Rmin_r].
      + apply Req_le. field. lra.
    - assert (P' : 0 < normal_norm h') by (apply norm_pos; apply H; right; auto). eapply Rle_trans; [|apply (Hr h' Hh')].
      apply Rplus_le_compat_l. apply Rmult_le_compat_l; [lra|apply Rmin_l]. }
  destruct G as (r & Hr). exists r. split; [apply repeat_length|auto].
Qed.

Lemma bump (u x : list R) r : length u = length x -> x <> [] -> exists a y0 y', In a u /\ x = y0 :: y' /\ dot u (y0 + r :: y') = dot u x + a * r.
Proof.
  destruct u as [|a u], x as [|y0 y']; intros H N; try discriminate; try congruence. exists a, y0, y'.
  split; [left; auto|]. split; auto. rewrite !dot_cons. lra.
Qed.
Lemma cheb_bounded dim hs bs : (1 <= dim)%nat -> (forall h, In h hs -> length (normal h) = dim) -> incl bs hs -> bounded dim bs ->
  exists M, forall x r, length x = dim -> fits hs x r -> r <= M.
Proof.
  intros Hdim Hd Hi (M & HM). exists (Rmax 0 (2 * M)). intros x r Hx Hf. destruct (Rle_dec r 0) as [L|L].
  - eapply Rle_trans; [exact L|apply Rmax_l].
  - apply Rnot_le_lt in L. assert (Nx : x <> []) by (intros ->; cbn in Hx; lia).
    assert (Fx : feasible bs x).
    { intros h Hh. specialize (Hf h (Hi h Hh)). assert (0 <= normal_norm h) by apply sqrt_pos. nra. }
    destruct x as [|y0 y']; [congruence|].
    assert (Fy : feasible bs (y0 + r :: y')).
    { intros h Hh. specialize (Hf h (Hi h Hh)). destruct (normal h) as [|a u] eqn:En; [rewrite <- (Hd h (Hi h Hh)), En in Hx; discriminate|].
      assert (B : Rabs a <= normal_norm h) by (apply norm_ge; rewrite En; left; auto). pose proof (Rle_abs a).
      unfold hval in *. rewrite En in *. rewrite dot_cons in *. assert (a * r <= normal_norm h * r) by (apply Rmult_le_compat_r; lra). lra. }
    pose proof (HM _ Hx Fx y0 (or_introl eq_refl)) as B1.
    pose proof (HM (y0 + r :: y') Hx Fy (y0 + r) (or_introl eq_refl)) as B2.
    eapply Rle_trans; [|apply Rmax_r]. pose proof (Rle_abs (- y0)). rewrite Rabs_Ropp in *. pose proof (Rle_abs (y0 + r)). lra.
Qed.

(** An interior point leaves room for a ball. *)
Lemma room hs p : (forall h, In h hs -> exists a, In a (normal h) /\ a <> 0) -> strictly_inside hs p -> exists r, 0 < r /\ fits hs p r.
Proof.
  intros Hn Hs. induction hs as [|h hs IH]; [exists 1; split; [lra|intros h []]|].
  destruct IH as (r & R0 & Hr); [intros; apply Hn; right; auto|intros h' Hh'; apply Hs; right; auto|].
  assert (P : 0 < normal_norm h) by (apply norm_pos; apply Hn; left; auto). assert (V : hval h p < 0) by (apply Hs; left; auto).
  exists (Rmin r (- hval h p / normal_norm h)). split.
  - apply Rmin_glb_lt; auto. apply Rdiv_lt_0_compat; lra.
  - intros h' [<-|Hh'].
    + apply Rle_trans with (hval h p + normal_norm h * (- hval h p / normal_norm h)).
      * apply Rplus_le_compat_l. apply Rmult_le_compat_l; [lra|apply Rmin_r].
      * apply Req_le. field. lra.
    + assert (P' : 0 < normal_norm h') by (apply norm_pos; apply Hn; right; auto). eapply Rle_trans; [|apply (Hr h' Hh')].
      apply Rplus_le_compat_l. apply Rmult_le_compat_l; [lra|apply Rmin_l].
Qed.

(** What the solver answers. *)
Lemma cheb_answer lp dim hs bs k : solves_lps lp -> (1 <= dim)%nat ->
  (forall h, In h hs -> length (normal h) = dim /\ exists a, In a (normal h) /\ a <> 0) -> incl bs hs -> bounded dim bs ->
  exists x r, lp k (chebyshev_c dim) (chebyshev_A hs) (chebyshev_b hs) = mkLP true 0 (Some (x ++ [r])) /\ length x = dim /\ fits hs x r /\
    forall y t, length y = dim -> fits hs y t -> t <= r.
Proof.
  intros Hs Hdim Hn Hi Hb. assert (Hd : forall h, In h hs -> length (normal h) = dim) by (intros h Hh; apply Hn; auto).
  pose proof (cheb_shaped hs Hd) as Sh. destruct (Hs k _ _ _ Sh) as (Ho & _ & _).
  destruct Ho as (z & Ez & (Fz & Oz)).
  - destruct (@cheb_solvable dim hs Hn) as (x & r & Lx & Fx). exists (x ++ [r]). apply cheb_feasible; auto.
  - destruct (@cheb_bounded dim hs bs Hdim Hd Hi Hb) as (M & HM). exists (- M). intros y Hy.
    destruct (@split_last y dim (proj1 Hy)) as (x & r & -> & Lx & _). rewrite cheb_value by auto. apply cheb_feasible in Hy; auto.
    specialize (HM x r Lx Hy). lra.
  - destruct (@split_last z dim (proj1 Fz)) as (x & r & -> & Lx & _). exists x, r. split; auto. split; auto.
    apply cheb_feasible in Fz; auto. split; auto. intros y t Ly Fy. specialize (Oz (y ++ [t])). rewrite !cheb_value in Oz by auto.
    assert (- r <= - t); [|lra]. apply Oz. apply cheb_feasible; auto.
Qed.

(** ** Sampling *)
Lemma mapM_py_get {T} (l : list T) idx : (forall i, In i idx -> (i < length l)%nat) ->
  exists out, mapM (py_get l) idx = Ok out /\ Forall2 (fun i a => nth_error l i = Some a) idx out.
Proof.
  induction idx as [|i idx IH]; intros H; [exists []; split; [reflexivity|constructor]|].
  destruct IH as (out & E & F); [intros; apply H; right; auto|]. specialize (H i (or_introl eq_refl)).
  destruct (nth_error l i) as [a|] eqn:Ea; [|apply nth_error_None in Ea; lia].
  exists (a :: out). split; [|constructor; auto]. cbn [mapM]. unfold py_get at 1. rewrite Ea. cbn [bind]. rewrite E. reflexivity.
Qed.
Lemma sampled_incl {T} (l : list T) idx out : Forall2 (fun i a => nth_error l i = Some a) idx out -> incl out l.
Proof. intros F a Ha. induction F as [|i b idx out E F IH]; [destruct Ha|]. destruct Ha as [<-|Ha]; auto. eapply nth_error_In; eauto. Qed.
Lemma sampled_all {T} (l : list T) idx out : Forall2 (fun i a => nth_error l i = Some a) idx out -> NoDup idx -> length idx = length l ->
  (forall i, In i idx -> (i < length l)%nat) -> incl l out.
Proof.
  intros F Nd Hl Hb a Ha. apply In_nth_error in Ha as (i & Ei).
  assert (Hi : In i idx).
  { apply (@NoDup_length_incl _ idx (seq 0 (length l)) Nd); [rewrite seq_length; lia|intros j Hj; apply in_seq; specialize (Hb j Hj); lia|].
    apply in_seq. assert (nth_error l i <> None) by congruence. apply nth_error_Some in H. lia. }
  clear -F Ei Hi. induction F as [|j b idx out E F IH]; [destruct Hi|]. destruct Hi as [->|Hi]; [left; congruence|right; auto].
Qed.

Section Loop.
Variables (choice : nat -> nat -> nat -> list nat) (lp : nat -> list R -> list (list R) -> list R -> lp_result).
Variables (dim : nat) (hs ins bs : list halfspace) (limit : nat).
Hypotheses (Hlp : solves_lps lp) (Hch : fair_sampler choice) (Hdim : (1 <= dim)%nat).
Hypothesis (Hn : forall h, In h (ins ++ bs) -> length (normal h) = dim /\ exists a, In a (normal h) /\ a <> 0).
Hypothesis (Hb : bounded dim bs).
Hypothesis (Hsplit : ins ++ bs = hs).

(** One round: the solver answers with the best ball for the sample, all rows if the sample is full. *)
Lemma round k s : exists sampled x r,
  mapM (py_get ins) (choice k (length ins) (Nat.min s (length ins))) = Ok sampled /\
  lp k (chebyshev_c dim) (chebyshev_A (sampled ++ bs)) (chebyshev_b (sampled ++ bs)) = mkLP true 0 (Some (x ++ [r])) /\ length x = dim /\
  ((length ins <= s)%nat -> fits hs x r /\ forall y t, length y = dim -> fits hs y t -> t <= r).
Proof.
  destruct (@Hch k (length ins) (Nat.min s (length ins)) (Nat.le_min_r _ _)) as (L & Nd & Bd).
  destruct (mapM_py_get ins _ Bd) as (sampled & E & F). pose proof (@sampled_incl _ ins _ _ F) as I1.
  destruct (@cheb_answer lp dim (sampled ++ bs) bs k Hlp Hdim) as (x & r & Ea & Lx & Fx & Ox); auto.
  - intros h Hh. apply Hn. apply in_app_iff in Hh as [Hh|Hh]; apply in_app_iff; auto.
  - apply incl_appr, incl_refl.
  - exists sampled, x, r. split; auto. split; auto. split; auto. intros Hs.
    assert (I2 : incl ins sampled) by (apply sampled_all with (choice k (length ins) (Nat.min s (length ins))); auto; lia).
    split.
    + rewrite <- Hsplit. intros h Hh. apply Fx. apply in_app_iff in Hh as [Hh|Hh]; apply in_app_iff; auto.
    + intros y t Ly Fy. apply (Ox y t Ly). rewrite <- Hsplit in Fy. intros h Hh. apply Fy. apply in_app_iff in Hh as [Hh|Hh]; apply in_app_iff; auto.
Qed.

Lemma fits_inside x r : 0 < r -> fits hs x r -> strictly_inside hs x.
Proof.
  intros R0 F h Hh. specialize (F h Hh). assert (0 < normal_norm h) by (apply norm_pos; apply Hn; rewrite Hsplit; auto). nra.
Qed.
Lemma inside_check x : forallb (fun h => Rltb (hval h x) 0) hs = true <-> strictly_inside hs x.
Proof. rewrite forallb_forall. split; intros H h Hh; specialize (H h Hh); apply Rltb_true; auto. Qed.

Lemma loop_finds p : length p = dim -> strictly_inside hs p -> forall d fuel k s, (1 <= s)%nat -> (length ins <= s * 2 ^ d)%nat -> (d < fuel)%nat ->
  exists x, interior_loop fuel choice lp dim hs ins bs limit k s 0 = Some (Ok x) /\ length x = dim /\
    ((length ins <= s)%nat -> exists r, 0 < r /\ fits hs x r /\ forall y t, length y = dim -> fits hs y t -> t <= r).
Proof.
  intros Lp Hp. destruct (@room hs p) as (r0 & R0 & F0); [intros h Hh; apply Hn; rewrite Hsplit; auto|auto|].
  induction d as [|d IH]; intros fuel k s Hs Hl Hf; (destruct fuel as [|fuel]; [lia|]); cbn [interior_loop];
    destruct (round k s) as (sampled & x & r & -> & -> & Lx & Full); cbn [lp_success lp_status lp_x orb]; rewrite removelast_last.
  - assert (Hfull : (length ins <= s)%nat) by (cbn in Hl; lia). destruct (Full Hfull) as (Fx & Ox). pose proof (Ox p r0 Lp F0) as B.
    rewrite (proj2 (inside_check x)) by (apply fits_inside with r; auto; lra). exists x. split; auto. split; auto. intros _. exists r. split; [lra|auto].
  - destruct (forallb _ hs) eqn:Ef.
    + exists x. split; auto. split; auto. intros Hfull. destruct (Full Hfull) as (Fx & Ox). pose proof (Ox p r0 Lp F0) as B. exists r. split; [lra|auto].
    + assert (Nf : ~ (length ins <= s)%nat).
      { intros Hfull. destruct (Full Hfull) as (Fx & Ox). pose proof (Ox p r0 Lp F0) as B.
        rewrite (proj2 (inside_check x)) in Ef by (apply fits_inside with r; auto; lra). discriminate. }
      destruct (Nat.ltb_spec limit 0); [lia|]. destruct (Nat.leb_spec (length ins) s); [lia|].
      destruct (IH fuel (S k) (s * 2)%nat) as (x' & E & Lx' & _); [lia|rewrite Nat.pow_succ_r' in Hl; lia|lia|]. exists x'. split; auto. split; auto. intros; lia.
Qed.

Lemma loop_raises : forall fuel k s r e, interior_loop fuel choice lp dim hs ins bs limit k s r = Some (Raise e) -> e = ValueError.
Proof.
  induction fuel as [|fuel IH]; intros k s r e H; [discriminate|]. cbn [interior_loop] in H.
  destruct (round k s) as (sampled & x & r' & E1 & E2 & Lx & Full). rewrite E1, E2 in H. cbn [lp_success lp_status lp_x orb] in H.
  destruct (forallb _ hs); [discriminate|]. destruct (Nat.ltb limit r); [congruence|]. destruct (Nat.leb _ s); eauto.
Qed.
End Loop.

Lemma box_system_dim dim hs : (dim = 2 \/ dim = 3)%nat -> box_system dim hs -> match hs with [] => 0%nat | h :: _ => length (normal h) end = dim /\
  (let cut := (length hs - 2 * dim)%nat in length (firstn cut hs) = cut /\ forall h, In h (firstn cut hs ++ skipn cut hs) -> length (normal h) = dim /\ exists a, In a (normal h) /\ a <> 0).
Proof.
  intros Hd (HL & Hn & _). split.
  - destruct hs as [|h hs]; [cbn in HL; lia|]. apply Hn. left; auto.
  - cbv zeta. rewrite firstn_skipn. split; auto. rewrite firstn_length. lia.
Qed.
Lemma get_loop dim hs : (dim = 2 \/ dim = 3)%nat -> match hs with [] => 0%nat | h :: _ => length (normal h) end = dim -> forall fuel choice lp s limit,
  get_interior_point fuel choice lp hs s limit =
  interior_loop fuel choice lp dim hs (firstn (length hs - 2 * dim) hs) (skipn (length hs - 2 * dim) hs) limit 0 s 0.
Proof. intros Hd E fuel choice lp s limit. unfold get_interior_point. rewrite E. destruct Hd as [-> | ->]; reflexivity. Qed.

Lemma interior_found dim hs fuel choice lp s limit d p :
  (dim = 2 \/ dim = 3)%nat -> box_system dim hs -> solves_lps lp -> fair_sampler choice ->
  (1 <= s)%nat -> (length hs <= s * 2 ^ d + 2 * dim)%nat -> (d < fuel)%nat -> length p = dim -> strictly_inside hs p ->
  exists x, get_interior_point fuel choice lp hs s limit = Some (Ok x) /\ length x = dim /\
    ((length hs <= s + 2 * dim)%nat -> exists r, 0 < r /\ fits hs x r /\ forall y t, length y = dim -> fits hs y t -> t <= r).
Proof.
  intros Hd Hb Hlp Hch Hs Hl Hf Lp Hp. destruct (box_system_dim Hd Hb) as (E & Lc & Hn). cbv zeta in *. rewrite (@get_loop dim) by auto.
  assert (Lh : (2 * dim <= length hs)%nat) by apply Hb.
  destruct (@loop_finds choice lp dim hs (firstn (length hs - 2 * dim) hs) (skipn (length hs - 2 * dim) hs) limit Hlp Hch ltac:(lia) Hn (proj2 (proj2 Hb)) (firstn_skipn _ _) p Lp Hp d fuel 0 s Hs ltac:(rewrite Lc; lia) Hf)
    as (x & Ex & Lx & Bx). exists x. split; auto. split; auto. intros H. apply Bx. rewrite Lc. lia.
Qed.

Lemma interior_not_found dim hs fuel choice lp s limit d :
  (dim = 2 \/ dim = 3)%nat -> box_system dim hs -> solves_lps lp -> fair_sampler choice ->
  (1 <= s)%nat -> (length hs <= s * 2 ^ d)%nat -> (d + limit + 2 <= fuel)%nat -> (forall p, length p = dim -> ~ strictly_inside hs p) ->
  get_interior_point fuel choice lp hs s limit = Some (Raise ValueError).
Proof.
  intros Hd Hb Hlp Hch Hs Hl Hf Hno. destruct (box_system_dim Hd Hb) as (E & Lc & Hn). cbv zeta in *.
  pose proof (@get_interior_point_stops fuel choice lp hs s limit d Hs Hl Hf) as N.
  destruct (get_interior_point fuel choice lp hs s limit) as [[x|e]|] eqn:EG; [| |congruence].
  - exfalso. destruct (get_interior_point_sound _ _ _ _ _ _ EG) as (Hx & _). revert EG. rewrite (@get_loop dim) by auto. intros EG.
    assert (Lx : length x = dim); [|apply (Hno x Lx Hx)].
    assert (G : forall fuel k s r, interior_loop fuel choice lp dim hs (firstn (length hs - 2 * dim) hs) (skipn (length hs - 2 * dim) hs) limit k s r = Some (Ok x) -> length x = dim).
    { clear EG N Hf. induction fuel0 as [|fuel0 IH]; intros k s0 r H; [discriminate|]. cbn [interior_loop] in H.
      destruct (@round choice lp dim hs (firstn (length hs - 2 * dim) hs) (skipn (length hs - 2 * dim) hs) Hlp Hch ltac:(lia) Hn (proj2 (proj2 Hb)) (firstn_skipn _ _) k s0) as (sampled & x' & r' & E1 & E2 & Lx & _).
      rewrite E1, E2 in H. cbn [lp_success lp_status lp_x orb] in H. rewrite removelast_last in H. destruct (forallb _ hs); [inversion H; subst; auto|].
      destruct (Nat.ltb limit r); [discriminate|]. destruct (Nat.leb _ s0); eauto. }
    eapply G; eauto.
  - do 2 f_equal. revert EG. rewrite (@get_loop dim) by auto. intros EG. 
    eapply (@loop_raises choice lp dim hs (firstn (length hs - 2 * dim) hs) (skipn (length hs - 2 * dim) hs) limit Hlp Hch ltac:(lia) Hn (proj2 (proj2 Hb)) (firstn_skipn _ _)); eauto.
Qed.

(** ** Balls *)
Lemma distance_norm x y : distance x y = sqrt (norm2 (vsub x y)).
Proof.
  unfold distance, norm2, vsub. f_equal. rewrite map_map. reflexivity.
Qed.
Lemma dot_vsub_r u : forall x y, length u = length x -> length x = length y -> dot u (vsub y x) = dot u y - dot u x.
Proof.
  induction u as [|a u IH]; intros [|b x] [|c y] H1 H2; try discriminate; [rewrite !dot_nil_l; lra|].
  unfold vsub in *. cbn [combine map fst snd]. rewrite !dot_cons, IH by (cbn in *; lia). lra.
Qed.
Lemma norm2_sym x y : norm2 (vsub x y) = norm2 (vsub y x).
Proof.
  unfold norm2, vsub. revert y. induction x as [|a x IH]; intros [|b y]; cbn [combine map fst snd]; auto. rewrite !rsum_cons, IH. ring.
Qed.
Definition move (x : list R) (c : R) (u : list R) : list R := map (fun ab => fst ab + c * snd ab) (combine x u).
Lemma move_length x c u : length u = length x -> length (move x c u) = length x.
Proof. intros H. unfold move. rewrite map_length, combine_length. lia. Qed.
Lemma dot_move u : forall x c, length u = length x -> dot u (move x c u) = dot u x + c * norm2 u.
Proof.
  assert (G : forall n u x c, length u = length x -> length n = length u -> dot n (move x c u) = dot n x + c * dot n u).
  { induction n as [|a n IH]; intros [|b v] [|y x] c H1 H2; try discriminate; [rewrite !dot_nil_l; lra|].
    unfold move in *. cbn [combine map fst snd]. rewrite !dot_cons, IH by (cbn in *; lia). lra. }
  intros x c H. rewrite G by auto. f_equal. f_equal. clear. unfold norm2. induction u as [|a u IH]; [reflexivity|]. cbn [map]. rewrite dot_cons, rsum_cons, IH. auto.
Qed.
Lemma norm2_move u : forall x c, length u = length x -> norm2 (vsub x (move x c u)) = c * c * norm2 u.
Proof.
  induction u as [|a u IH]; intros [|y x] c H; try discriminate; unfold norm2, vsub, move in *; cbn [combine map fst snd]; rewrite ?rsum_nil, ?rsum_cons; [lra|].
  rewrite IH by (cbn in *; lia). ring.
Qed.

Lemma fits_ball dim hs x r : (forall h, In h hs -> length (normal h) = dim) -> length x = dim -> fits hs x r -> ball_inside hs x r.
Proof.
  intros Hd Lx F y Ly Hy h Hh. specialize (F h Hh). unfold hval in *.
  assert (E : dot (normal h) y = dot (normal h) x + dot (normal h) (vsub y x)) by (rewrite dot_vsub_r by (rewrite ?Hd; auto); lra).
  assert (B : dot (normal h) (vsub y x) <= normal_norm h * r).
  { eapply Rle_trans; [apply dot_norms; unfold vsub; rewrite map_length, combine_length, Hd; auto; lia|].
    apply Rmult_le_compat_l; [apply sqrt_pos|]. rewrite norm2_sym, <- distance_norm. auto. }
  lra.
Qed.
Lemma ball_fits dim hs x r : (forall h, In h hs -> length (normal h) = dim /\ exists a, In a (normal h) /\ a <> 0) -> length x = dim -> 0 <= r ->
  ball_inside hs x r -> fits hs x r.
Proof.
  intros Hn Lx R0 B h Hh. destruct (Hn h Hh) as (Hl & Nz). assert (P : 0 < normal_norm h) by (apply norm_pos; auto).
  assert (E2 : norm2 (normal h) = normal_norm h * normal_norm h) by (unfold normal_norm; rewrite sqrt_sqrt; [auto|apply sq_sum_nonneg]).
  specialize (B (move x (r / normal_norm h) (normal h))). assert (L : length (normal h) = length x) by congruence.
  specialize (B (move_length _ _ _ L)). unfold hval. unfold feasible in B.
  assert (D : distance x (move x (r / normal_norm h) (normal h)) <= r).
  { rewrite distance_norm, norm2_move, E2 by auto. replace (r / normal_norm h * (r / normal_norm h) * (normal_norm h * normal_norm h)) with (Rsqr r) by (unfold Rsqr; field; lra).
    rewrite sqrt_Rsqr by auto. lra. }
  specialize (B D h Hh). unfold hval in B. rewrite dot_move, E2 in B by auto.
  replace (r / normal_norm h * (normal_norm h * normal_norm h)) with (normal_norm h * r) in B by (field; lra). lra.
Qed.

(** ** The systems CHAMP builds *)
Lemma row_norm_pos h : (exists a, In a (normal h) /\ a <> 0) -> 0 < row_norm h.
Proof.
  intros (a & Ha & N). unfold row_norm. apply sqrt_lt_R0. pose proof (sq_sum_in _ _ Ha). assert (0 < a * a) by nra. nra.
Qed.
Lemma normalise_nonzero h : (exists a, In a (normal h) /\ a <> 0) -> exists a, In a (normal (normalise h)) /\ a <> 0.
Proof.
  intros Hn. pose proof (@row_norm_pos h Hn). destruct Hn as (a & Ha & N). exists (a / row_norm h). split.
  - cbn [normal normalise]. apply in_map_iff. eauto.
  - unfold Rdiv. apply Rmult_integral_contrapositive_currified; auto. apply Rinv_neq_0_compat. lra.
Qed.
Lemma hval_normalise h x : (exists a, In a (normal h) /\ a <> 0) -> (hval (normalise h) x <= 0 <-> hval h x <= 0).
Proof.
  intros Hn. pose proof (@row_norm_pos h Hn) as P. unfold hval, normalise. cbn [normal offset]. rewrite dot_div.
  replace (dot (normal h) x / row_norm h + offset h / row_norm h) with ((dot (normal h) x + offset h) / row_norm h) by (field; lra).
  assert (0 < / row_norm h) by (apply Rinv_0_lt_compat; auto). unfold Rdiv. split; intros H1; nra.
Qed.

Lemma box_system_2D A P g0 gf hs : champ_halfspaces_2D A P g0 gf = Ok hs ->
  box_system 2 hs /\ length hs = (length (combine A P) + 4)%nat.
Proof.
  intros H. destruct (champ2_inv _ _ _ _ H) as (top & bottom & _ & _ & E).
  assert (L : length hs = (length (combine A P) + 4)%nat) by (rewrite E, map_length, app_length, map_length; reflexivity).
  split; auto. split; [lia|]. split.
  - intros h Hh. split; [apply (rows_2D _ _ _ _ H); auto|]. rewrite E in Hh. apply in_map_iff in Hh as (h' & <- & Hh). apply normalise_nonzero.
    apply in_app_iff in Hh as [Hh|Hh].
    + apply in_map_iff in Hh as (ap & <- & _). exists (-1). cbn [normal]. split; [right; left; auto|lra].
    + repeat (destruct Hh as [<-|Hh]; [cbn [normal]; first [exists 1; split; [cbn; tauto|lra] | exists (-1); split; [cbn; tauto|lra]]|]). destruct Hh.
  - rewrite L. replace (length (combine A P) + 4 - 2 * 2)%nat with (length (combine A P)) by lia. rewrite E, map_app, skipn_app, !map_length, Nat.sub_diag.
    rewrite skipn_all2 by (rewrite !map_length; lia). cbn [app skipn].
    exists (Rabs g0 + Rabs gf + Rabs top + Rabs bottom). intros x Lx Hf. destruct (list2 _ Lx) as (u & v & ->).
    assert (Q : forall h, In h (box_2D top bottom g0 gf) -> hval h [u; v] <= 0).
    { intros h Hh. apply hval_normalise; [|apply Hf; apply in_map; auto]. repeat (destruct Hh as [<-|Hh]; [cbn [normal]; first [exists 1; split; [cbn; tauto|lra] | exists (-1); split; [cbn; tauto|lra]]|]). destruct Hh. }
    pose proof (Q _ (or_introl eq_refl)) as Q1. pose proof (Q _ (or_intror (or_introl eq_refl))) as Q2.
    pose proof (Q _ (or_intror (or_intror (or_introl eq_refl)))) as Q3. pose proof (Q _ (or_intror (or_intror (or_intror (or_introl eq_refl))))) as Q4.
    unfold hval in *. cbn [normal offset] in *. rewrite !dot_cons, !dot_nil_l in *.
    intros y Hy. assert (HH : g0 <= y <= gf \/ bottom <= y <= top) by (destruct Hy as [<-|[<-|[]]]; [left|right]; lra).
    clear - HH. pose proof (Rle_abs g0); pose proof (Rle_abs gf); pose proof (Rle_abs top); pose proof (Rle_abs bottom).
    pose proof (Rle_abs (- g0)) as N0; pose proof (Rle_abs (- gf)) as N1; pose proof (Rle_abs (- top)) as N2; pose proof (Rle_abs (- bottom)) as N3.
    rewrite Rabs_Ropp in *.
    apply Rabs_le. destruct HH; pose proof (Rabs_pos g0); pose proof (Rabs_pos gf); pose proof (Rabs_pos top); pose proof (Rabs_pos bottom); lra.
Qed.

Lemma box_system_3D A P C g0 gf o0 of hs : champ_halfspaces_3D A P C g0 gf o0 of = Ok hs ->
  box_system 3 hs /\ length hs = (length (combine (combine A P) C) + 6)%nat.
Proof.
  intros H. destruct (champ3_inv _ _ _ _ _ _ _ H) as (top & bottom & _ & _ & E).
  assert (L : length hs = (length (combine (combine A P) C) + 6)%nat) by (rewrite E, map_length, app_length, map_length; reflexivity).
  split; auto. split; [lia|]. split.
  - intros h Hh. split; [apply (rows_3D _ _ _ _ _ _ _ H); auto|]. rewrite E in Hh. apply in_map_iff in Hh as (h' & <- & Hh). apply normalise_nonzero.
    apply in_app_iff in Hh as [Hh|Hh].
    + apply in_map_iff in Hh as (ap & <- & _). exists (-1). cbn [normal]. split; [right; right; left; auto|lra].
    + repeat (destruct Hh as [<-|Hh]; [cbn [normal]; first [exists 1; split; [cbn; tauto|lra] | exists (-1); split; [cbn; tauto|lra]]|]). destruct Hh.
  - rewrite L. replace (length (combine (combine A P) C) + 6 - 2 * 3)%nat with (length (combine (combine A P) C)) by lia. rewrite E, map_app, skipn_app, !map_length, Nat.sub_diag.
    rewrite skipn_all2 by (rewrite !map_length; lia). cbn [app skipn].
    exists (Rabs g0 + Rabs gf + Rabs top + Rabs bottom + Rabs o0 + Rabs of). intros x Lx Hf. destruct (list3 _ Lx) as (u & w & v & ->).
    assert (Q : forall h, In h (box_3D top bottom g0 gf o0 of) -> hval h [u; w; v] <= 0).
    { intros h Hh. apply hval_normalise; [|apply Hf; apply in_map; auto]. repeat (destruct Hh as [<-|Hh]; [cbn [normal]; first [exists 1; split; [cbn; tauto|lra] | exists (-1); split; [cbn; tauto|lra]]|]). destruct Hh. }
    pose proof (Q _ (or_introl eq_refl)) as Q1. pose proof (Q _ (or_intror (or_introl eq_refl))) as Q2.
    pose proof (Q _ (or_intror (or_intror (or_introl eq_refl)))) as Q3. pose proof (Q _ (or_intror (or_intror (or_intror (or_introl eq_refl))))) as Q4.
    pose proof (Q _ (or_intror (or_intror (or_intror (or_intror (or_introl eq_refl)))))) as Q5. pose proof (Q _ (or_intror (or_intror (or_intror (or_intror (or_intror (or_introl eq_refl))))))) as Q6.
    unfold hval in *. cbn [normal offset] in *. rewrite !dot_cons, !dot_nil_l in *.
    intros y Hy. assert (HH : g0 <= y <= gf \/ bottom <= y <= top \/ o0 <= y <= of) by (destruct Hy as [<-|[<-|[<-|[]]]]; [left|right; right|right; left]; lra).
    clear - HH. pose proof (Rle_abs g0); pose proof (Rle_abs gf); pose proof (Rle_abs top); pose proof (Rle_abs bottom).
    pose proof (Rle_abs o0); pose proof (Rle_abs of).
    pose proof (Rle_abs (- g0)) as N0; pose proof (Rle_abs (- gf)) as N1; pose proof (Rle_abs (- top)) as N2; pose proof (Rle_abs (- bottom)) as N3.
    pose proof (Rle_abs (- o0)) as N4; pose proof (Rle_abs (- of)) as N5.
    rewrite Rabs_Ropp in *.
    apply Rabs_le. pose proof (Rabs_pos g0); pose proof (Rabs_pos gf); pose proof (Rabs_pos top); pose proof (Rabs_pos bottom).
    pose proof (Rabs_pos o0); pose proof (Rabs_pos of). destruct HH as [|[|]]; lra.
Qed.

Lemma combine_le {T U} (l : list T) (l' : list U) : (length (combine l l') <= length l)%nat.
Proof. rewrite combine_length. lia. Qed.
Lemma interior_point_found_2D env n A P g0 gf hs p : working_solver env n -> (length A <= n)%nat -> champ_halfspaces_2D A P g0 gf = Ok hs ->
  length p = 2%nat -> strictly_inside hs p -> exists x, interior_point env hs = Ok x.
Proof.
  intros (H1 & H2 & d & H3 & H4) HA Hhs Lp Hp. destruct (box_system_2D _ _ _ _ Hhs) as (HB & L). pose proof (combine_le A P).
  destruct (@interior_found 2 hs (env_fuel env) (env_choice env) (env_lp env) 50 10 d p) as (x & Ex & _); auto; try lia.
  exists x. unfold interior_point. rewrite Ex. auto.
Qed.
Lemma interior_point_found_3D env n A P C g0 gf o0 of hs p : working_solver env n -> (length A <= n)%nat -> champ_halfspaces_3D A P C g0 gf o0 of = Ok hs ->
  length p = 3%nat -> strictly_inside hs p -> exists x, interior_point env hs = Ok x.
Proof.
  intros (H1 & H2 & d & H3 & H4) HA Hhs Lp Hp. destruct (box_system_3D _ _ _ _ _ _ _ Hhs) as (HB & L). pose proof (combine_le A P). pose proof (combine_le (combine A P) C).
  destruct (@interior_found 3 hs (env_fuel env) (env_choice env) (env_lp env) 50 10 d p) as (x & Ex & _); auto; try lia.
  exists x. unfold interior_point. rewrite Ex. auto.
Qed.
