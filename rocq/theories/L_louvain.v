(** Legacy Louvain driver and attribute shim. *)
From Coq Require Import Ascii.
From Flocq Require Import Core.Raux Core.Defs Core.Generic_fmt Core.FLT Core.Round_NE Core.Zaux.
From Verif Require Import PyBase PyGraph M_partition M_pool M_champ M_leiden M_progress M_louvain Spec Spec_leiden Spec_text L_base L_canon L_parallel L_leiden L_split L_multileiden L_progress.
Set Implicit Arguments.
Open Scope nat_scope.

Definition lo_weighted env g := weighted (leiden_of env) g.

Definition louvain_outcome env k g ge lv gamma omega : res (list nat) :=
  match lo_package env with
  | Missing => Raise NameError
  | Plain => Raise AttributeError
  | WithLayers => lo_multiplex env k ((lo_weighted env g, lv, gamma), 1%R) ((lo_weighted env ge, 0%R), omega)
  end.

Lemma multilayer_louvain_eq env k g ge lv gamma omega :
  multilayer_louvain env k g ge lv gamma omega =
  ((match lo_package env with WithLayers => (lo_weighted env g, lo_weighted env ge) | _ => (g, ge) end), louvain_outcome env k g ge lv gamma omega).
Proof.
  unfold multilayer_louvain, louvain_outcome, check_multilayer_louvain_capabilities. destruct (lo_package env); auto.
  rewrite !default_weights_total. reflexivity.
Qed.

Section Loop.
Variables (env : louvain_env) (g ge : graph) (lv : list nat) (orders : nat -> nat -> list nat) (low : nat -> bool).
Hypothesis Horders : forall j n, Permutation (orders j n) (seq 0 n).
Let out (it : nat * (R * R)) := louvain_outcome env (fst it) g ge lv (fst (snd it)) (snd (snd it)).
Let bar_ok (b : option progress) := match b with None => True | Some p => p_total p > 0 end.

Lemma fold_set parts : forall acc : list (list nat), NoDup acc ->
  exists s, foldM (fun total m => let! t := sorted_tuple (map Z.of_nat m) in Ok (set_add t total)) parts acc = Ok s /\ NoDup s /\
    forall t, In t s <-> In t acc \/ exists m, In m parts /\ canonical_form_of m t.
Proof.
  induction parts as [|m parts IH]; intros acc Hn; cbn [foldM].
  - exists acc. split; auto. split; auto. intros t. split; auto. intros [|(m & [] & _)]; auto.
  - destruct (sorted_tuple_total (map Z.of_nat m)) as [c Hc]. rewrite Hc. cbn [bind].
    destruct (IH (set_add c acc)) as (s & Hs & Hns & Hin); [apply set_add_nodup; auto|].
    exists s. split; auto. split; auto. intros t. rewrite Hin, set_add_in. split.
    + intros [[->|Hi]|(m' & Hi & Hf)]; auto.
      * right. exists m. simpl. split; auto. apply sorted_tuple_form; auto.
      * right. exists m'. simpl. auto.
    + intros [Hi|(m' & [<-|Hi] & Hf)]; auto.
      * left; left. apply sorted_tuple_form in Hf. congruence.
      * right. eauto.
Qed.

Lemma bar_step b : bar_ok b -> exists b', match b with None => Ok None | Some p => let! (_, p') := progress_increment p in Ok (Some p') end = Ok b' /\ bar_ok b'.
Proof.
  destruct b as [p|]; [|exists None; auto]. intros H. unfold progress_increment, progress_update. cbn [bar_ok] in H.
  destruct (Nat.eqb_spec (p_total p) 0); [lia|]. cbn [bind]. eexists. split; [reflexivity|]. cbn. auto.
Qed.

Lemma out_eq ch : map (fun it => snd (multilayer_louvain env (fst it) g ge lv (fst (snd it)) (snd (snd it)))) ch = map out ch.
Proof. apply map_ext. intros it. rewrite multilayer_louvain_eq. reflexivity. Qed.

Lemma mapM_out ch : mapM (fun it => snd (multilayer_louvain env (fst it) g ge lv (fst (snd it)) (snd (snd it)))) ch = mapM out ch.
Proof. apply mapM_ext. intros it _. rewrite multilayer_louvain_eq. reflexivity. Qed.

Lemma iteration_ok j s ch : bar_ok (ls_bar s) -> NoDup (ls_total s) -> (forall it, In it ch -> exists m, out it = Ok m) ->
  exists s', louvain_iteration env g ge lv (orders j (length ch)) (low j) s ch = (ls_log s ++ ch, Ok s') /\
    ls_log s' = ls_log s ++ ch /\ bar_ok (ls_bar s') /\ NoDup (ls_total s') /\
    forall t, In t (ls_total s') <-> In t (ls_total s) \/ exists it m, In it ch /\ out it = Ok m /\ canonical_form_of m t.
Proof.
  intros Hb Hn Ho. unfold louvain_iteration.
  assert (Hm : exists parts, mapM out ch = Ok parts).
  { clear -Ho. induction ch as [|it ch IH]; cbn [mapM]; [eauto|]. destruct (Ho it) as [m ->]; simpl; auto. destruct IH as [ps ->]; [intros; apply Ho; simpl; auto|]. simpl. eauto. }
  destruct Hm as [parts Hm]. rewrite (@starmap_ok _ _ _ ch parts (orders j (length ch))); auto; [|rewrite mapM_out; auto]. cbn [bind].
  destruct (fold_set parts Hn) as (tot & Hf & Hnt & Hin). rewrite Hf. cbn [bind].
  destruct (@bar_step (ls_bar s) Hb) as (b' & Eb & Hb'). rewrite Eb. cbn [bind].
  eexists. split; [reflexivity|]. cbn [ls_log ls_bar ls_total]. split; auto. split; auto. split; auto.
  intros t. rewrite Hin. apply mapM_Ok_inv in Hm.
  assert (K : (exists m, In m parts /\ canonical_form_of m t) <-> exists it m, In it ch /\ out it = Ok m /\ canonical_form_of m t).
  { split.
    - intros (m & Hi & Hc). clear -Hm Hi Hc. induction Hm as [|it m' ch ps He H IH]; [destruct Hi|].
      destruct Hi as [<-|Hi]; [exists it, m'; simpl; auto|]. destruct (IH Hi) as (it' & m1 & A & B & C). exists it', m1. simpl. auto.
    - intros (it & m & Hi & Hmm & Hc). clear -Hm Hi Hmm Hc. induction Hm as [|it' m' ch ps He H IH]; [destruct Hi|].
      destruct Hi as [<-|Hi]; [exists m; simpl; split; auto; left; congruence|]. destruct (IH Hi) as (m1 & A & B). exists m1. simpl. auto. }
  rewrite K. reflexivity.
Qed.

Lemma iteration_raise j s ch it e : In it ch -> out it = Raise e ->
  exists it' e', In it' ch /\ out it' = Raise e' /\ louvain_iteration env g ge lv (orders j (length ch)) (low j) s ch = (ls_log s ++ ch, Raise e').
Proof.
  intros Hi He. unfold louvain_iteration.
  assert (Hm : exists e0, mapM out ch = Raise e0).
  { clear -Hi He. induction ch as [|a ch IH]; [destruct Hi|]. cbn [mapM]. destruct Hi as [->|Hi]; [rewrite He; simpl; eauto|].
    destruct (out a); simpl; [|eauto]. destruct (IH Hi) as [e0 ->]. simpl. eauto. }
  destruct Hm as [e0 Hm]. rewrite <- mapM_out in Hm.
  destruct (@starmap_raise _ _ _ ch e0 (orders j (length ch)) (Horders _ _) Hm) as (e' & x & Hx & Hfx & Hs). rewrite Hs. cbn [bind].
  rewrite multilayer_louvain_eq in Hfx. exists x, e'. auto.
Qed.

Lemma loop_ok : forall chunks j s, bar_ok (ls_bar s) -> NoDup (ls_total s) -> (forall it, In it (concat chunks) -> exists m, out it = Ok m) ->
  exists s', louvain_loop env g ge lv orders low j chunks s = (ls_log s ++ concat chunks, Ok s') /\ bar_ok (ls_bar s') /\ NoDup (ls_total s') /\
    forall t, In t (ls_total s') <-> In t (ls_total s) \/ exists it m, In it (concat chunks) /\ out it = Ok m /\ canonical_form_of m t.
Proof.
  induction chunks as [|ch chunks IH]; intros j s Hb Hn Ho; cbn [louvain_loop concat].
  - exists s. rewrite app_nil_r. split; auto. split; auto. split; auto. intros t. split; auto. intros [|(it & m & [] & _)]; auto.
  - cbn [concat] in Ho. destruct (@iteration_ok j s ch Hb Hn) as (s1 & E & Hl & Hb1 & Hn1 & Hin1).
    { intros it Hi. apply Ho. apply in_or_app. auto. }
    rewrite E. destruct (IH (S j) s1 Hb1 Hn1) as (s2 & E2 & Hb2 & Hn2 & Hin2). { intros it Hi. apply Ho. apply in_or_app. auto. }
    exists s2. rewrite E2, Hl, <- app_assoc. split; auto. split; auto. split; auto. intros t. rewrite Hin2, Hin1. split.
    + intros [[H|(it & m & A & B)]|(it & m & A & B)]; auto; right; exists it, m; rewrite in_app_iff; auto.
    + intros [H|(it & m & A & B)]; auto. apply in_app_iff in A as [A|A]; [left; right|right]; eauto.
Qed.

Lemma loop_raise : forall chunks j s it e, bar_ok (ls_bar s) -> NoDup (ls_total s) -> In it (concat chunks) -> out it = Raise e ->
  exists it' e' k, In it' (concat chunks) /\ out it' = Raise e' /\ louvain_loop env g ge lv orders low j chunks s = (ls_log s ++ concat (firstn k chunks), Raise e').
Proof.
  induction chunks as [|ch chunks IH]; intros j s it e Hb Hn Hi He; cbn [louvain_loop concat] in *; [destruct Hi|].
  assert (Dec : (exists it e, In it ch /\ out it = Raise e) \/ (forall it, In it ch -> exists m, out it = Ok m)).
  { clear. induction ch as [|a ch IH]; [right; intros it []|]. destruct (out a) as [m|e] eqn:E.
    - destruct IH as [(it & e & A & B)|IH]; [left; exists it, e; simpl; auto|]. right. intros it [<-|H]; eauto.
    - left. exists a, e. simpl. auto. }
  destruct Dec as [(it0 & e0 & A & B)|Hall].
  - destruct (@iteration_raise j s ch it0 e0 A B) as (it' & e' & C & D & E). rewrite E. exists it', e', 1. cbn [firstn concat]. rewrite app_nil_r, in_app_iff. auto.
  - destruct (@iteration_ok j s ch Hb Hn Hall) as (s1 & E & Hl & Hb1 & Hn1 & _). rewrite E.
    apply in_app_iff in Hi as [Hi|Hi]; [destruct (Hall it Hi); congruence|].
    destruct (IH (S j) s1 it e Hb1 Hn1 Hi He) as (it' & e' & k & C & D & F). rewrite F, Hl. exists it', e', (S k). cbn [firstn concat]. rewrite in_app_iff, <- app_assoc. auto.
Qed.
End Loop.

Lemma ceil_pos a b : 0 < a -> 0 < b -> (Z.of_nat b <= 2 ^ 53)%Z -> 0 < ceil_quotient a b.
Proof.
  intros Ha Hb H53. unfold ceil_quotient. assert (Hb' : (0 < INR b)%R) by (apply lt_0_INR; auto).
  assert (Hq : (bpow radix2 (-53) <= INR a / INR b)%R).
  { apply Rle_trans with (/ INR b)%R.
    - change (bpow radix2 (-53)) with (/ IZR (2 ^ 53))%R. apply Rinv_le_contravar; auto. rewrite INR_IZR_INZ. apply IZR_le. auto.
    - unfold Rdiv. rewrite <- (Rmult_1_l (/ INR b)) at 1. apply Rmult_le_compat_r; [left; apply Rinv_0_lt_compat; auto|]. apply (le_INR 1). auto. }
  assert (Hr : (0 < binary64 (INR a / INR b))%R).
  { apply Rlt_le_trans with (bpow radix2 (-53)); [apply bpow_gt_0|]. unfold binary64. apply round_ge_generic; auto.
    - apply FLT_exp_valid. reflexivity.
    - apply valid_rnd_N.
    - apply generic_format_bpow. unfold FLT_exp. simpl. lia. }
  assert (0 < Zceil (binary64 (INR a / INR b)))%Z; [|lia]. apply lt_IZR. eapply Rlt_le_trans; [exact Hr|apply Zceil_ub].
Qed.

Lemma louvain_chunks_concat gammas omegas cd : concat (fst (louvain_chunks gammas omegas cd)) = enumerate (grid gammas omegas).
Proof.
  unfold louvain_chunks. set (k := length (grid gammas omegas) / 99). destruct (Nat.ltb_spec 0 k); destruct cd; cbn [andb fst]; try (simpl; apply app_nil_r).
  apply chunked_concat. lia.
Qed.

Lemma firstn_concat_prefix {A} (ls : list (list A)) k : exists rest, concat ls = concat (firstn k ls) ++ rest.
Proof. exists (concat (skipn k ls)). rewrite <- concat_app, firstn_skipn. reflexivity. Qed.

Section Driver.
Variables (env : louvain_env) (orders : nat -> nat -> list nat) (low : nat -> bool) (g ge : graph) (lv : list nat) (gammas omegas : list R) (show cd : bool).
Hypothesis Horders : forall j n, Permutation (orders j n) (seq 0 n).
Let out i (x : R * R) := louvain_outcome env i g ge lv (fst x) (snd x).

(** the bar never divides by zero on a nonempty grid *)
Lemma initial_bar : (show = true -> grid gammas omegas <> [] /\ (Z.of_nat (length (grid gammas omegas)) <= 2 ^ 53)%Z) ->
  exists bar, (if show then
           if Nat.eqb (snd (louvain_chunks gammas omegas cd)) 0 then Raise ZeroDivisionError
           else let! p := progress_new (ceil_quotient (length (grid gammas omegas)) (snd (louvain_chunks gammas omegas cd))) 80 in Ok (Some p)
         else Ok None) = Ok bar /\ match bar with None => True | Some p => p_total p > 0 end.
Proof.
  destruct show; [|exists None; auto]. intros H. destruct (H eq_refl) as [Hne H53]. clear H.
  assert (Hl : 0 < length (grid gammas omegas)) by (destruct (grid gammas omegas); simpl; [congruence|lia]).
  assert (Hc : 0 < snd (louvain_chunks gammas omegas cd) <= length (grid gammas omegas)).
  { assert (Hg : 0 < length gammas <= length (grid gammas omegas)) by (clear -Hl; rewrite grid_length in Hl |- *; destruct (length gammas), (length omegas); nia).
    pose proof (Nat.div_le_upper_bound (length (grid gammas omegas)) 99 (length (grid gammas omegas)) ltac:(lia) ltac:(lia)) as Hd.
    unfold louvain_chunks. destruct (Nat.ltb_spec 0 (length (grid gammas omegas) / 99)) as [Hk|Hk]; destruct cd; cbn [andb snd]; auto. }
  destruct (Nat.eqb_spec (snd (louvain_chunks gammas omegas cd)) 0); [lia|]. unfold progress_new. cbn [Nat.eqb bind].
  eexists. split; [reflexivity|]. cbn [p_total]. apply ceil_pos; auto; lia.
Qed.

Lemma louvain_driver : (show = true -> grid gammas omegas <> [] /\ (Z.of_nat (length (grid gammas omegas)) <= 2 ^ 53)%Z) ->
  collects out (grid gammas omegas) (snd (repeated_parallel_louvain_from_gammas_omegas env orders low g ge lv gammas omegas show cd)) /\
  (exists rest, enumerate (grid gammas omegas) = fst (repeated_parallel_louvain_from_gammas_omegas env orders low g ge lv gammas omegas show cd) ++ rest) /\
  ((forall i x, nth_error (grid gammas omegas) i = Some x -> exists m, out i x = Ok m) ->
   fst (repeated_parallel_louvain_from_gammas_omegas env orders low g ge lv gammas omegas show cd) = enumerate (grid gammas omegas)).
Proof.
  intros Hs. destruct (initial_bar Hs) as (bar & Eb & Hbar). unfold repeated_parallel_louvain_from_gammas_omegas.
  pose proof (louvain_chunks_concat gammas omegas cd) as Hcc.
  destruct (louvain_chunks gammas omegas cd) as [chunks csz] eqn:Ec. cbn [fst snd] in *. rewrite Eb.
  set (out' := fun it : nat * (R * R) => louvain_outcome env (fst it) g ge lv (fst (snd it)) (snd (snd it))).
  assert (Dec : (exists it e, In it (concat chunks) /\ out' it = Raise e) \/ (forall it, In it (concat chunks) -> exists m, out' it = Ok m)).
  { clear. induction (concat chunks) as [|a ch IH]; [right; intros it []|]. destruct (out' a) as [m|e] eqn:E.
    - destruct IH as [(it & e & A & B)|IH]; [left; exists it, e; simpl; auto|]. right. intros it [<-|H]; eauto.
    - left. exists a, e. simpl. auto. }
  destruct Dec as [(it & e & Hi & He)|Hall].
  - destruct (@loop_raise env g ge lv orders low Horders chunks 0 (mkLS [] [] bar 1) it e Hbar (NoDup_nil _) Hi He) as (it' & e' & k & A & B & ->).
    cbn [fst snd bind ls_log]. cbn [app]. rewrite Hcc in A. destruct it' as [i' x']. apply in_enumerate in A.
    rewrite Hcc in Hi. destruct it as [i x]. apply in_enumerate in Hi. split; [|split].
    + split.
      * intros H. destruct (H i x Hi) as [m Hm]. unfold out' in He. unfold out in Hm. cbn [fst snd] in He. congruence.
      * intros _. exists i', x', e'. auto.
    + destruct (firstn_concat_prefix chunks k) as [rest Hr]. exists rest. rewrite <- Hcc. auto.
    + intros H. destruct (H i x Hi) as [m Hm]. unfold out' in He. unfold out in Hm. cbn [fst snd] in He. congruence.
  - destruct (@loop_ok env g ge lv orders low Horders chunks 0 (mkLS [] [] bar 1) Hbar (NoDup_nil _) Hall) as (s' & -> & Hb' & Hn' & Hin).
    cbn [fst snd bind ls_log ls_total] in *. cbn [app].
    assert (Ed : match ls_bar s' with None => Ok tt | Some p => let! _ := progress_done p in Ok tt end = Ok tt).
    { destruct (ls_bar s') as [p|]; auto. unfold progress_done, progress_update. destruct (Nat.eqb_spec (p_total p) 0); [lia|]. reflexivity. }
    rewrite Ed. cbn [bind]. rewrite Hcc in *. split; [|split].
    + split.
      * intros H. exists (ls_total s'). split; auto. split; auto. intros t. rewrite Hin. split.
        -- intros [[]|([i x] & m & A & B & C)]. apply in_enumerate in A. exists i, x, m. auto.
        -- intros (i & x & m & A & B & C). right. exists (i, x), m. rewrite in_enumerate. auto.
      * intros (i & x & e & A & B). destruct (Hall (i, x)) as [m Hm]; [apply in_enumerate; auto|]. unfold out' in Hm. unfold out in B. cbn [fst snd] in Hm. congruence.
    + exists []. rewrite app_nil_r. auto.
    + auto.
Qed.

Lemma louvain_serial : collects out (grid gammas omegas) (snd (repeated_louvain_from_gammas_omegas env g ge lv gammas omegas)).
Proof.
  unfold repeated_louvain_from_gammas_omegas.
  assert (G : forall points k g0 ge0 acc, (forall it, louvain_outcome env (fst it) g0 ge0 lv (fst (snd it)) (snd (snd it)) = out (fst it) (snd it)) ->
    snd (louvain_serial_loop env k g0 ge0 lv points acc) =
    foldM (fun total (ev : nat * (R * R) * res (list nat)) => let! m := snd ev in let! t := sorted_tuple (map Z.of_nat m) in Ok (set_add t total))
      (map (fun it => (it, out (fst it) (snd it))) (enumerate_from k points)) acc).
  { induction points as [|[gamma omega] points IH]; intros k g0 ge0 acc H; cbn [louvain_serial_loop enumerate_from map foldM]; auto.
    rewrite multilayer_louvain_eq. cbv beta iota. cbn [fst snd]. pose proof (H (k, (gamma, omega))) as H0. cbn [fst snd] in H0. rewrite <- H0.
    destruct (lo_package env) eqn:Ep.
    - unfold louvain_outcome. rewrite Ep. reflexivity.
    - unfold louvain_outcome. rewrite Ep. reflexivity.
    - destruct (louvain_outcome env k g0 ge0 lv gamma omega) as [m|e]; cbn [bind]; auto.
      destruct (sorted_tuple (map Z.of_nat m)) as [t|e]; cbn [bind]; auto. apply IH.
      intros it. rewrite <- H. unfold louvain_outcome. rewrite Ep. unfold lo_weighted. rewrite !weighted_idem. reflexivity. }
  rewrite G by reflexivity. apply (@driver_collects _ out (grid gammas omegas)). apply Permutation_refl.
Qed.
End Driver.

Lemma louvain_empty env orders low g ge lv gammas omegas show cd : (forall j n, Permutation (orders j n) (seq 0 n)) ->
  gammas = [] \/ omegas = [] ->
  snd (repeated_parallel_louvain_from_gammas_omegas env orders low g ge lv gammas omegas show cd) = if show then Raise ZeroDivisionError else Ok [].
Proof.
  intros Ho He. assert (Hg : grid gammas omegas = []).
  { destruct He as [->| ->]; auto. induction gammas; simpl; auto. }
  unfold repeated_parallel_louvain_from_gammas_omegas, louvain_chunks. rewrite Hg. cbn [length Nat.div Nat.divmod fst Nat.ltb Nat.leb andb].
  assert (H0 : orders 0 0 = []) by (apply Permutation_nil; symmetry; apply (Ho 0 0)).
  destruct show.
  - destruct (Nat.eqb_spec (length gammas) 0) as [E|E]; [reflexivity|]. unfold progress_new. cbn [Nat.eqb bind].
    replace (ceil_quotient 0 (length gammas)) with 0.
    + cbn [louvain_loop]. unfold louvain_iteration. cbn. rewrite H0. cbn. reflexivity.
    + unfold ceil_quotient. simpl. unfold Rdiv. rewrite Rmult_0_l. unfold binary64. rewrite round_0 by apply valid_rnd_N. rewrite (Zceil_IZR 0). reflexivity.
  - cbn [louvain_loop]. unfold louvain_iteration. cbn. rewrite H0. reflexivity.
Qed.

(** ** Attribute shim *)
Lemma is_prefix_app p s : is_prefix p (p ++ s) = true.
Proof. induction p; simpl; auto. rewrite Ascii.eqb_refl. auto. Qed.

Lemma border_free p s : p <> [] -> is_prefix louvain (p ++ louvain ++ s) = true -> is_prefix louvain p = true.
Proof.
  intros Hp. unfold louvain.
  do 7 (destruct p as [|? p]; [try congruence; simpl; rewrite ?andb_false_r; discriminate|]).
  cbn [app is_prefix]. rewrite !andb_true_iff. tauto.
Qed.

Lemma replace_skip old new p s : replace_from (length p) old new (p ++ s) = replace_from 0 old new s.
Proof. induction p as [|c p IH]; simpl; auto. Qed.

Lemma replace_match s : str_replace louvain leiden (louvain ++ s) = leiden ++ str_replace louvain leiden s.
Proof. reflexivity. Qed.

Lemma is_prefix_app_l p q s : is_prefix p q = true -> is_prefix p (q ++ s) = true.
Proof. revert q; induction p as [|a p IH]; intros [|b q] H; simpl in *; auto; try discriminate. apply andb_prop in H as [-> H]. simpl. auto. Qed.

Lemma replace_piece p rest : is_infix louvain p = false -> rest = [] \/ (exists s, rest = louvain ++ s) ->
  str_replace louvain leiden (p ++ rest) = p ++ str_replace louvain leiden rest.
Proof.
  intros Hp Hr. induction p as [|c p IH]; auto.
  assert (Hp1 : is_prefix louvain (c :: p) = false /\ is_infix louvain p = false) by (cbn [is_infix] in Hp; apply orb_false_iff in Hp; auto).
  destruct Hp1 as [Hpre Hinf]. unfold str_replace. cbn [app]. cbn [replace_from].
  assert (Hno : is_prefix louvain (c :: p ++ rest) = false).
  { destruct Hr as [->|[s ->]]; [rewrite app_nil_r; auto|].
    destruct (is_prefix louvain (c :: p ++ louvain ++ s)) eqn:E; auto.
    change (c :: p ++ louvain ++ s) with ((c :: p) ++ louvain ++ s) in E. apply border_free in E; congruence. }
  rewrite Hno. f_equal. apply IH. auto.
Qed.

Lemma join_cons sep p q rest : join sep (p :: q :: rest) = p ++ sep ++ join sep (q :: rest).
Proof. reflexivity. Qed.

Lemma replace_join pieces : pieces <> [] -> (forall p, In p pieces -> is_infix louvain p = false) ->
  str_replace louvain leiden (join louvain pieces) = join leiden pieces.
Proof.
  induction pieces as [|p [|q rest] IH]; intros Hne H; [congruence| |].
  - cbn [join]. rewrite <- (app_nil_r p) at 1. rewrite (@replace_piece p []); auto; [apply app_nil_r|apply H; simpl; auto].
  - rewrite (join_cons louvain), (join_cons leiden).
    transitivity (p ++ str_replace louvain leiden (louvain ++ join louvain (q :: rest))); [apply replace_piece; [apply H; simpl; auto|eauto]|].
    apply (f_equal (fun z : list ascii => p ++ z)). transitivity (leiden ++ str_replace louvain leiden (join louvain (q :: rest))); [apply replace_match|].
    apply (f_equal (fun z : list ascii => leiden ++ z)). apply IH; [discriminate|].
    intros x Hx. apply H. simpl; auto.
Qed.

Lemma is_infix_app p q s : is_prefix p s = true -> is_infix p (q ++ s) = true.
Proof. intros H. induction q as [|c q IH]; simpl; [destruct s; simpl in *; rewrite H; auto|]. rewrite IH. apply orb_true_r. Qed.

Lemma join_infix p q rest : is_infix louvain (join louvain (p :: q :: rest)) = true.
Proof. rewrite join_cons. apply is_infix_app. apply is_prefix_app. Qed.

Lemma is_prefix_split p : forall s, is_prefix p s = true -> exists r, s = p ++ r.
Proof.
  induction p as [|a p IH]; intros [|b s] H; simpl in *; try discriminate; [exists []; auto|exists (b :: s); auto|].
  apply andb_prop in H as [E H]. apply Ascii.eqb_eq in E. subst. destruct (IH s H) as [r ->]. exists r. auto.
Qed.

Lemma infix_first s : is_infix louvain s = true -> exists p r, s = p ++ louvain ++ r /\ is_infix louvain p = false.
Proof.
  induction s as [|c s IH]; intros H.
  - cbn in H. discriminate.
  - destruct (is_prefix louvain (c :: s)) eqn:Ep.
    + apply is_prefix_split in Ep as [r Hr]. exists [], r. auto.
    + cbn [is_infix] in H. rewrite Ep in H. cbn [orb] in H. destruct (IH H) as (p & r & -> & Hp).
      exists (c :: p), r. split; auto. cbn [is_infix]. rewrite Hp, orb_false_r.
      destruct (is_prefix louvain (c :: p)) eqn:E; auto.
      change (c :: p ++ louvain ++ r) with ((c :: p) ++ louvain ++ r) in Ep. rewrite (is_prefix_app_l _ _ _ E) in Ep. discriminate.
Qed.

Lemma pieces_exist name : exists pieces, pieces <> [] /\ (forall p, In p pieces -> is_infix louvain p = false) /\ name = join louvain pieces.
Proof.
  assert (G : forall n name, length name < n -> exists pieces, pieces <> [] /\ (forall p, In p pieces -> is_infix louvain p = false) /\ name = join louvain pieces).
  { induction n as [|n IH]; intros s Hs; [lia|]. destruct (is_infix louvain s) eqn:E.
    - destruct (infix_first s E) as (p & r & -> & Hp). destruct (IH r) as (ps & Hne & Hall & ->).
      { rewrite !app_length in Hs. cbn in Hs. lia. }
      exists (p :: ps). split; [discriminate|]. split; [intros x [<-|Hx]; auto|]. destruct ps; [congruence|]. reflexivity.
    - exists [s]. split; [discriminate|]. split; auto. intros p [<-|[]]; auto. }
  apply (G (S (length name))). lia.
Qed.

Lemma is_infix_contains p s : is_infix p s = true <-> contains p s.
Proof.
  split.
  - induction s as [|c s IH]; cbn [is_infix]; intros H; apply orb_prop in H as [H|H]; try discriminate.
    + apply is_prefix_split in H as [r Hr]. exists [], r. auto.
    + apply is_prefix_split in H as [r Hr]. exists [], r. auto.
    + destruct (IH H) as (a & b & ->). exists (c :: a), b. auto.
  - intros (a & b & ->). apply is_infix_app, is_prefix_app.
Qed.

Lemma not_contains p s : ~ contains p s <-> is_infix p s = false.
Proof. rewrite <- is_infix_contains. destruct (is_infix p s); split; congruence. Qed.
