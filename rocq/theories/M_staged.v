(** Model of the experiments that keep their intermediate results in files:
    /repo/experiments/pamfil_synthetic_networks/easy_regime_generation.py and hard_regime_generation.py (the generator itself is in
    M_generators.v), and /repo/experiments/lazega_law_firm/lazega_figures.py.  Not modelled: printed messages, axis labels, titles,
    colours of markers, legends, the pdf files, and print_metadata_nmis, which nothing calls. *)
From Coq Require Import String.
From Verif Require Import PyBase PyGraph M_partition M_champ M_leiden M_estimation_utils M_estimation M_checks M_generators M_plotting M_lfr.
Open Scope list_scope.
Open Scope R_scope.

(** ** Files *)

(** A multilayer network with its planted communities, and what the steps compute: the movements of run_pamfil_iteration, a set of
    partitions, CHAMP's domains, and domains with their estimates. *)
Definition network : Type := (graph * graph * list nat * list nat)%type.
Definition movement : Type := (R * R * list npf * list R)%type.
Definition domain : Type := (list (R * R) * list nat)%type.
Inductive content : Type :=
| Network (x : network) | Movements (l : list movement) | Parts (l : list (list nat)) | Domains (l : list domain) | Estimates (l : list domain_estimate).

(** The working directory: for every name what it holds ([file] is in M_lfr.v: absent, truncated, or complete). *)
Definition directory : Type := string -> file content.
Definition put (name : string) (f : file content) (d : directory) : directory := fun n => if String.eqb n name then f else d n.

(** A program: the successive contents it gives to the directory, and how it ends. *)
Definition prog (A : Type) : Type := directory -> list directory * ending A.
Definition give {A} (a : A) : prog A := fun _ => ([], Done a).
Definition ends {A} (e : ending A) : prog A := fun _ => ([], e).
Definition now (d : directory) (l : list directory) : directory := last l d.
Definition and_then {A B} (x : prog A) (f : A -> prog B) : prog B := fun d =>
  let (l, e) := x d in
  match e with
  | Done a => let (l', e') := f a (now d l) in (l ++ l', e')
  | Error e => (l, Error e)
  | Unreadable => (l, Unreadable)
  | Never => (l, Never)
  end.
Notation "'step' x '<-' e ';' f" := (and_then e (fun x => f)) (at level 200, x pattern, e at level 100, f at level 200).
Definition of_res {A} (r : res A) : ending A := match r with Ok a => Done a | Raise Stuck => Never | Raise e => Error e end.
(** [pickle.dump(v, open(name, "wb"))]: truncated, then complete. *)
Definition write (name : string) (v : content) : prog unit := fun d => ([put name Torn d; put name (Stored v) d], Done tt).
(** [pickle.load(open(name, "rb"))]; the error for a missing file stands for FileNotFoundError. *)
Definition read (name : string) : prog content := fun d =>
  ([], match d name with Absent => Error ValueError | Torn => Unreadable | Stored v => Done v end).
(** [if not os.path.exists(name): v = ...; pickle.dump(v, open(name, "wb"))] *)
Definition ensure (name : string) (make : prog content) : prog unit := fun d =>
  match d name with Absent => (step v <- make; write name v) d | _ => ([], Done tt) end.

(** Reading a file for a certain kind of value; another kind is an error where it is used. *)
Definition read_network (name : string) : prog network := step v <- read name; match v with Network x => give x | _ => ends (Error TypeError) end.
Definition read_movements (name : string) : prog (list movement) := step v <- read name; match v with Movements x => give x | _ => ends (Error TypeError) end.
Definition read_parts (name : string) : prog (list (list nat)) := step v <- read name; match v with Parts x => give x | _ => ends (Error TypeError) end.
Definition read_domains (name : string) : prog (list domain) := step v <- read name; match v with Domains x => give x | _ => ends (Error TypeError) end.
Definition read_estimates (name : string) : prog (list domain_estimate) := step v <- read name; match v with Estimates x => give x | _ => ends (Error TypeError) end.

(** What one run of a script meets: for every file it makes and every figure it draws, the routines behind CHAMP and the estimates;
    leidenalg, the caches of the pool's workers, their number, and the order in which chunks are completed; the optimiser of each
    call of the iterative estimation; the random numbers of each attempt at a network and how many attempts take place before the
    process ends; matplotlib, and the adjusted mutual information. *)
Record stage_env : Type := mkStage {
  sg_est : string -> est_env;
  sg_leiden : leiden_env;
  sg_cache : nat -> split_cache;
  sg_cpus : nat;
  sg_order : list nat;
  sg_opt : nat -> opt_env;
  sg_draws : nat -> draws;
  sg_attempts : nat;
  sg_plot : string -> plot_env
}.

(** ** The synthetic temporal networks *)

(** One of the two scripts: the generator with its arguments, the names of the five files, the starting points of the iteration
    (both axes), the number of repetitions, and Leiden's grid. *)
Record regime : Type := mkRegime {
  rg_generate : est_env -> (nat -> draws) -> nat -> option (res network);
  rg_graph : string; rg_iteration : string; rg_louvain : string; rg_domains : string; rg_restricted : string;
  rg_gammas0 : list R; rg_omegas0 : list R; rg_repeats : nat;
  rg_gammas : list R; rg_omegas : list R
}.
Definition with_names (generate : est_env -> (nat -> draws) -> nat -> option (res network)) (a b c d e : string) : regime :=
  mkRegime generate a b c d e (linspace (6 / 10) (145 / 100) 15) (linspace (4 / 10) (16 / 10) 15) 5 (linspace 0 2 225) (linspace 0 2 225).
(** easy_regime_generation.py:20-36, 105-106, 130-131, 259-263. *)
Definition easy_regime : regime :=
  with_names (fun env ds fuel => generate_synthetic_network env ds (7 / 10) (4 / 10) (94 / 100) (98 / 100) fuel)
    "easy_regime_multilayer.p" "easy_regime_test_results.p" "easy_regime_50K_louvain.p" "synthetic_champ_domains_with_estimates.p"
    "synthetic_champ_2-community_domains_with_estimates.p".
(** hard_regime_generation.py:9-13, 17-19. *)
Definition hard_regime : regime :=
  with_names (fun env ds fuel => generate_synthetic_network env ds (5 / 10) (5 / 10) (96 / 100) (80 / 100) fuel)
    "hard_regime_multilayer.p" "hard_regime_test_results.p" "hard_regime_50K_louvain.p" "synthetic_champ_domains_with_estimates_hard_regime.p"
    "synthetic_champ_2-community_domains_with_estimates_hard_regime.p".

(** [x - y] for a numpy float that may be nan. *)
Definition np_minus (x : npf) (y : R) : npf := match x with Fin x => Fin (x - y) | NonFinite => NonFinite end.

(** The state of run_pamfil_iteration: the number of calls so far, the module-level [parts] of parameter_estimation, and the two graph
    objects. *)
Definition walk : Type := (nat * option (list lpart) * (graph * graph))%type.

(** easy_regime_generation.py:95-102 one_step, with the defaults of parameter_estimation.py:130-132.  None is (None, None). *)
Definition one_step (env : stage_env) (est : est_env) (lv : list nat) (w : walk) (gamma omega : R) : walk * res (option (npf * R)) :=
  let '(k, parts, (g, gi)) := w in
  let '(_, parts', gs, out) :=
    iterative_multilayer_resolution_parameter_estimation est (sg_opt env k) parts g gi lv gamma omega (1 / 100) (5 / 100) 1000 1 "temporal" false in
  ((S k, parts', gs), match out with
                      | Ok (g_new, o_new, _) => Ok (Some (g_new, o_new))
                      | Raise ValueError => Ok None
                      | Raise e => Raise e
                      end).

(** easy_regime_generation.py:111-117: the repetitions at one point. *)
Fixpoint repeat_step (env : stage_env) (est : est_env) (lv : list nat) (g0 o0 : R) (repeats : nat) (w : walk) (gdiffs : list npf) (odiffs : list R)
  : res (walk * list npf * list R) :=
  match repeats with
  | O => Ok (w, gdiffs, odiffs)
  | S more =>
    let (w', out) := one_step env est lv w g0 o0 in
    let! o := out in
    match o with
    | Some (g1, o1) => repeat_step env est lv g0 o0 more w' (gdiffs ++ [np_minus g1 g0]) (odiffs ++ [o1 - o0])
    | None => repeat_step env est lv g0 o0 more w' gdiffs odiffs
    end
  end.

(** easy_regime_generation.py:104-124, once the network is loaded; the [else] of the inner loop is always reached. *)
Definition pamfil_movements (env : stage_env) (est : est_env) (r : regime) (x : network) : res (list movement) :=
  let '(g, gi, lv, _) := x in
  let! (_, values) := foldM (fun st p =>
    let! (w', gdiffs, odiffs) := repeat_step env est lv (fst p) (snd p) (rg_repeats r) (fst st) [] [] in
    Ok (w', snd st ++ [(fst p, snd p, gdiffs, odiffs)])) (grid (rg_gammas0 r) (rg_omegas0 r)) ((0%nat, None, (g, gi)), []) in
  Ok values.
(** easy_regime_generation.py:92-124 run_pamfil_iteration. *)
Definition run_pamfil_iteration (env : stage_env) (r : regime) : prog (list movement) :=
  step x <- read_network (rg_graph r); ends (of_res (pamfil_movements env (sg_est env (rg_iteration r)) r x)).

(** easy_regime_generation.py:127-131 run_louvain_on_grid (the deprecated alias, C53). *)
Definition leiden_on_grid (env : stage_env) (g gi : graph) (lv : list nat) (gammas omegas : list R) : res (list (list nat)) :=
  snd (repeated_parallel_leiden_from_gammas_omegas (sg_leiden env) (sg_cache env) (sg_cpus env) (sg_order env) g gi lv gammas omegas true).
Definition run_louvain_on_grid (env : stage_env) (r : regime) : prog (list (list nat)) :=
  step x <- read_network (rg_graph r);
  let '(g, gi, lv, _) := x in ends (of_res (leiden_on_grid env g gi lv (rg_gammas r) (rg_omegas r))).

(** [{p for p in all_parts if num_communities(p) == k}], listed in the order in which the set is traversed. *)
Definition with_communities (est : est_env) (restrict : option nat) (parts : list (list nat)) : res (list (list nat)) :=
  match restrict with
  | None => Ok (ee_set_order est (py_set parts))
  | Some k => let! ks := mapM num_communities parts in
              Ok (ee_set_order est (py_set (map snd (filter (fun x => Nat.eqb (fst x) k) (combine ks parts)))))
  end.

(** easy_regime_generation.py:213-231, once the files are loaded.  [if restrict_communities:] also takes 0 for no restriction; it is
    called with 2 and without one. *)
Definition domains_with_estimates (est : est_env) (restrict : option nat) (x : network) (all_parts : list (list nat)) : res (list domain_estimate) :=
  let '(g, gi, lv, _) := x in
  let! parts := with_communities est restrict all_parts in
  let! domains := CHAMP_3D (ee_champ est) g gi lv parts 0 2 0 2 in
  snd (domains_to_gamma_omega_estimates est g gi lv domains "temporal").
(** easy_regime_generation.py:208-231 generate_domains_with_estimates. *)
Definition generate_domains_with_estimates (env : stage_env) (r : regime) (target : string) (restrict : option nat) : prog (list domain_estimate) :=
  step x <- read_network (rg_graph r);
  step all_parts <- read_parts (rg_louvain r);
  ends (of_res (domains_with_estimates (sg_est env target) restrict x all_parts)).

(** numpy.mean of floats that may be nan. *)
Definition np_mean_npf (l : list npf) : npf := match mapM (fun x => match x with Fin y => Ok y | NonFinite => Raise ValueError end) l with Ok ys => np_mean ys | Raise _ => NonFinite end.
Definition np_scale (a : R) (x : npf) : npf := match x with Fin x => Fin (a * x) | NonFinite => NonFinite end.

(** The figures, as data: arrows (tail (omega, gamma), and the vector), the planted partition's estimate, domains with estimates,
    domains with their mutual information, domains with the number of communities, and the restricted domains. *)
Definition arrow : Type := (R * R * (npf * npf))%type.
Definition drawn_domains : Type := (list (point * (R * npf)) * list (R * npf) * (list (list point) * list (option nat)))%type.
Record figures : Type := mkFigures {
  fg_arrows : list arrow;
  fg_truth : R * option npf;
  fg_domains : drawn_domains;
  fg_ami : list (list point) * list R;
  fg_communities : list (list point) * list nat * list nat;
  fg_restricted : drawn_domains
}.

(** easy_regime_generation.py:144-149: one arrow. *)
Definition movement_arrow (v : movement) : arrow :=
  let '(g0, o0, gdiffs, odiffs) := v in (o0, g0, (np_scale (1 / 10) (np_mean odiffs), np_scale (1 / 10) (np_mean_npf gdiffs))).
(** easy_regime_generation.py:134-161 plot_pamfil_iteration, 164-205 plot_domains, plot_domains_with_amis, plot_domains_with_Ks, and 234-247
    plot_domains_restricted_communities; every one of them reads its files again. *)
Definition plot_pamfil_iteration (env : stage_env) (r : regime) : prog (list arrow * (R * option npf)) :=
  step x <- read_network (rg_graph r);
  step values <- read_movements (rg_iteration r);
  let '(g, gi, lv, truth) := x in
  step e <- ends (of_res (snd (gamma_omega_estimate (sg_est env "pamfil_iteration") g gi lv truth 1000 "temporal" None None None None)));
  give (map movement_arrow values, (snd e, fst e)).
Definition omega_window : R * R := (4 / 10, 16 / 10).
Definition gamma_window : R * R := (6 / 10, 145 / 100).
Definition plot_domains (env : stage_env) (figure file : string) : prog drawn_domains :=
  step l <- read_estimates file;
  ends (of_res (plot_2d_domains_with_estimates (sg_plot env figure) l omega_window gamma_window true true)).
Definition plot_domains_with_amis (env : stage_env) (r : regime) : prog (list (list point) * list R) :=
  step x <- read_network (rg_graph r);
  step l <- read_estimates (rg_domains r);
  ends (of_res (plot_2d_domains_with_ami (sg_plot env "ami") l (snd x) omega_window gamma_window true)).
Definition plot_domains_with_Ks (env : stage_env) (r : regime) : prog (list (list point) * list nat * list nat) :=
  step l <- read_estimates (rg_domains r);
  ends (of_res (plot_2d_domains_with_num_communities l omega_window gamma_window true None 2)).

(** easy_regime_generation.py:258-304, hard_regime_generation.py:8-56: the script. *)
Definition make_network (env : stage_env) (r : regime) : prog content :=
  ends (match rg_generate r (sg_est env (rg_graph r)) (sg_draws env) (sg_attempts env) with
        | None => Never
        | Some (Ok x) => Done (Network x)
        | Some (Raise e) => Error e
        end).
Definition regime_files (env : stage_env) (r : regime) : prog unit :=
  step _ <- ensure (rg_graph r) (make_network env r);
  step _ <- ensure (rg_iteration r) (step v <- run_pamfil_iteration env r; give (Movements v));
  step _ <- ensure (rg_louvain r) (step p <- run_louvain_on_grid env r; give (Parts p));
  step _ <- ensure (rg_domains r) (step l <- generate_domains_with_estimates env r (rg_domains r) None; give (Estimates l));
  ensure (rg_restricted r) (step l <- generate_domains_with_estimates env r (rg_restricted r) (Some 2%nat); give (Estimates l)).
Definition regime_main (env : stage_env) (r : regime) : prog figures :=
  step _ <- regime_files env r;
  step (arrows, truth) <- plot_pamfil_iteration env r;
  step domains <- plot_domains env "domains" (rg_domains r);
  step amis <- plot_domains_with_amis env r;
  step Ks <- plot_domains_with_Ks env r;
  step restricted <- plot_domains env "restricted" (rg_restricted r);
  give (mkFigures arrows truth domains amis Ks restricted).

(** ** The law firm *)

(** The data and the grid: the number of persons, the three matrices that adjacency_from_dat reads, Leiden's grid, and the number of
    grid points that line 73 asserts. *)
Record law_firm : Type := mkFirm {
  lw_persons : nat; lw_advice : list (list Z); lw_friend : list (list Z); lw_work : list (list Z);
  lw_gammas : list R; lw_omegas : list R; lw_points : Z
}.
(** lazega_figures.py:44, 71-73. *)
Definition lazega (advice friend work : list (list Z)) : law_firm := mkFirm 71 advice friend work (linspace 0 2 2000) (linspace 0 3 500) (10 ^ 6).
Definition firm_network (f : law_firm) : res (graph * graph * list nat) := generate_lazega_igraph (lw_persons f) (lw_advice f) (lw_friend f) (lw_work f).

(** The names of the files. *)
Definition firm_louvain : string := "lazega_1M_louvain.p".
Definition firm_champ : string := "lazega_CHAMP.p".
Definition digit (k : nat) : string := match k with 2 => "2" | 3 => "3" | 4 => "4" | 5 => "5" | 6 => "6" | _ => "7" end%nat%string.
Definition firm_champ_K (k : nat) : string := ("lazega_CHAMP" ++ digit k ++ ".p")%string.

(** lazega_figures.py:69-77 run_lazega_louvain, without the dump. *)
Definition firm_partitions (env : stage_env) (f : law_firm) : res (list (list nat)) :=
  let! (g, gi, lv) := firm_network f in
  if Z.eqb (Z.of_nat (length (lw_gammas f)) * Z.of_nat (length (lw_omegas f))) (lw_points f)
  then leiden_on_grid env g gi lv (lw_gammas f) (lw_omegas f) else Raise AssertionError.
(** lazega_figures.py:80-98 run_champ_on_lazega_partitions and run_champ_on_lazega_partitions_restricted_K, without the dump. *)
Definition firm_domains (est : est_env) (f : law_firm) (restrict : option nat) (all_parts : list (list nat)) : res (list domain) :=
  let! (g, gi, lv) := firm_network f in
  let! parts := with_communities est restrict all_parts in
  CHAMP_3D (ee_champ est) g gi lv parts 0 2 0 3.
Definition run_champ (env : stage_env) (f : law_firm) (target : string) (restrict : option nat) : prog content :=
  step _ <- ends (of_res (firm_network f));
  step all_parts <- read_parts firm_louvain;
  step l <- ends (of_res (firm_domains (sg_est env target) f restrict all_parts));
  give (Domains l).

(** lazega_figures.py:109-111 etc.: domains without an estimate are dropped and omega is cut to at most 3 - [margin]. *)
Definition cut_omegas (margin : R) (l : list domain_estimate) : list domain_estimate :=
  flat_map (fun d => match d with
                     | (poly, mem, Some g_est, Some o) => [(poly, mem, Some g_est, Some (Rmin o (3 - margin)))]
                     | _ => []
                     end) l.
(** ... of the domains in one file, with the estimates of the multiplex model. *)
Definition firm_estimates (est : est_env) (f : law_firm) (margin : R) (domains : list domain) : res (list domain_estimate) :=
  let! (g, gi, lv) := firm_network f in
  let! l := snd (domains_to_gamma_omega_estimates est g gi lv domains "multiplex") in
  Ok (cut_omegas margin l).

(** lazega_figures.py:267-271: the order of persons in figure 5.10. *)
Definition person_order : list nat :=
  [46; 21; 64; 55; 48; 54; 68; 40; 70; 56; 65; 66; 53; 51; 67; 38; 42; 39; 37; 26; 20; 10; 12; 22; 25; 0; 23; 19; 7; 35; 61; 69; 63; 41; 28; 16; 15; 8; 11; 9; 14; 1; 3;
   36; 18; 52; 43; 47; 33; 44; 60; 59; 45; 31; 34; 27; 62; 5; 49; 30; 58; 50; 17; 57; 4; 32; 6; 2; 24; 13; 29]%nat.
(** lazega_figures.py:275-285: the labels of a partition, layer by layer in the order advice, work, friendship, with the persons in the
    given order when there are 2, 3 or 4 communities.  [sort] can be longer than N only by mistake (IndexError). *)
Definition shown_labels (N : nat) (sort : list nat) (membership : list nat) : res (list nat) :=
  let! K := num_communities membership in
  let layer i := firstn N (skipn (i * N) membership) in
  let pick m := if Nat.eqb K 2 || Nat.eqb K 3 || Nat.eqb K 4 then mapM (py_get m) sort else Ok m in
  let! m1 := pick (layer 0%nat) in
  let! m2 := pick (layer 1%nat) in
  let! m3 := pick (layer 2%nat) in
  Ok (m1 ++ m3 ++ m2).

(** The figures, as data: 5.8 (domains; stable domains; the points of the stable partitions with 4, 3 and 2 communities), 5.9 (K = 2, 3, 4),
    5.7, and 5.10 (one matrix for every stable partition). *)
Record firm_figures : Type := mkFirmFigures {
  ff_domains : drawn_domains;
  ff_stable : drawn_domains;
  ff_points : list (list (option R * option npf));
  ff_restricted : list drawn_domains;
  ff_communities : list (list point) * list nat * list nat;
  ff_matrices : list (list (list nat))
}.
Definition firm_x : R * R := (4 / 10, 3).
Definition firm_y : R * R := (8 / 10, 1275 / 1000).

(** Reads the domains in a file and estimates them; lazega_figures.py:104-111, 154-161, 182-189, 212-219, 253-260.  The network is the one
    just built; that a figure gives it default weights once for all its files makes no difference (C11). *)
Definition read_cut (env : stage_env) (f : law_firm) (figure : string) (margin : R) (file : string) : prog (list domain_estimate) :=
  step l <- read_domains file; ends (of_res (firm_estimates (sg_est env figure) f margin l)).
Fixpoint for_all {A B} (body : A -> prog B) (l : list A) : prog (list B) :=
  match l with
  | [] => give []
  | a :: l' => step b <- body a; step bs <- for_all body l'; give (b :: bs)
  end.

(** lazega_figures.py:101-173 plot_figure1. *)
Definition firm_figure1 (env : stage_env) (f : law_firm) : prog (drawn_domains * drawn_domains * list (list (option R * option npf))) :=
  step _ <- ends (of_res (firm_network f));
  step l <- read_cut env f "5.8" (1 / 1000) firm_champ;
  step a <- ends (of_res (plot_2d_domains_with_estimates (sg_plot env "5.8") l firm_x firm_y true true));
  step b <- ends (of_res (plot_2d_domains_with_estimates (sg_plot env "5.8 stable") (stable_domains l) firm_x firm_y false true));
  step points <- for_all (fun K => step lK <- read_cut env f "5.8 K" (1 / 100) (firm_champ_K K);
                                   give (map (fun d : domain_estimate => (snd d, snd (fst d))) (stable_domains lK))) [4; 3; 2]%nat;
  give (a, b, points).
(** lazega_figures.py:176-206 plot_figure1_restricted_K. *)
Definition firm_figure1_restricted (env : stage_env) (f : law_firm) : prog (list drawn_domains) :=
  step _ <- ends (of_res (firm_network f));
  for_all (fun K => step lK <- read_cut env f "5.9" (1 / 1000) (firm_champ_K K);
                    ends (of_res (plot_2d_domains_with_estimates (sg_plot env "5.9") (stable_domains lK) firm_x (4 / 10, 14 / 10) true true))) [2; 3; 4]%nat.
(** lazega_figures.py:209-242 plot_figure2. *)
Definition firm_figure2 (env : stage_env) (f : law_firm) : prog (list (list point) * list nat * list nat) :=
  step _ <- ends (of_res (firm_network f));
  step l <- read_cut env f "5.7" (1 / 1000) firm_champ;
  ends (of_res (plot_2d_domains_with_num_communities l firm_x firm_y true (Some 5%nat) 1)).
(** lazega_figures.py:245-295 plot_figure3. *)
Definition firm_matrix (f : law_firm) (lv : list nat) (membership : list nat) : res (list (list nat)) :=
  let! labels := shown_labels (lw_persons f) person_order membership in plot_multiplex_community (Array labels) (Array lv).
Definition firm_figure3 (env : stage_env) (f : law_firm) : prog (list (list (list nat))) :=
  step (_, _, lv) <- ends (of_res (firm_network f));
  step stable <- for_all (fun K => step lK <- read_cut env f "5.10" (1 / 1000) (firm_champ_K K);
                                   give (gamma_omega_estimates_to_stable_partitions lK)) [2; 3; 4]%nat;
  ends (of_res (mapM (firm_matrix f lv) (concat stable))).

(** lazega_figures.py:332-349: the script. *)
Definition firm_files (env : stage_env) (f : law_firm) : prog unit :=
  step _ <- ensure firm_louvain (step p <- ends (of_res (firm_partitions env f)); give (Parts p));
  step _ <- ensure firm_champ (run_champ env f firm_champ None);
  step _ <- for_all (fun k => ensure (firm_champ_K k) (run_champ env f (firm_champ_K k) (Some k))) [2; 3; 4; 5; 6; 7]%nat;
  give tt.
Definition firm_main (env : stage_env) (f : law_firm) : prog firm_figures :=
  step _ <- firm_files env f;
  step (a, b, points) <- firm_figure1 env f;
  step restricted <- firm_figure1_restricted env f;
  step Ks <- firm_figure2 env f;
  step matrices <- firm_figure3 env f;
  give (mkFirmFigures a b points restricted Ks matrices).
