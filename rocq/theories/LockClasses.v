(** The member functions of the particular classes are what the sequential models say. *)
From Coq Require Import String Ascii Permutation.
From Verif Require Import Prelude FilterModel FilterSpec FilterProofs ConsumerModel ConsumerSpec ConsumerProofs HistModel HistSpec HistTop StatsModel StatsSpec StatsTop LockModel LockSpec LockProofs LockTop LockUses LockOnce LockObjects.
Local Open Scope nat_scope.
Local Notation len xs := (N.of_nat (List.length xs)).

Lemma fixed_id : forall {S L} (ms : list (method S L)), (forall m, In m ms -> forall s l, m_look m s l = l) -> look_fixed ms.
Proof. intros S L ms H m m' g Hm Hm' Hg s l a. now rewrite !(H m Hm). Qed.
Lemma count_fixed : forall ms, (forall m, In m ms -> m = count_method \/ m = count_get_method) -> look_fixed ms.
Proof. intros ms H. apply fixed_id. intros m Hm s l. destruct (H m Hm) as [-> | ->]; reflexivity. Qed.
Lemma mean_fixed : forall {K} (F : kops K) ms, (forall m, In m ms -> m = mean_method F) -> look_fixed ms.
Proof. intros K F ms H. apply fixed_id. intros m Hm s l. rewrite (H m Hm). reflexivity. Qed.
Lemma out_fixed : forall ms, (forall m, In m ms -> exists x, m = out_method x) -> look_fixed ms.
Proof. intros ms H. apply fixed_id. intros m Hm s l. destruct (H m Hm) as [x ->]. reflexivity. Qed.
Lemma ten_fixed : forall {X A} n (ms : list (method N (flocal X A))), (forall m, In m ms -> m = ten_method n) -> look_fixed ms.
Proof. intros X A n ms H. apply fixed_id. intros m Hm s l. rewrite (H m Hm). reflexivity. Qed.
Lemma dfn_fixed : forall {X A} n (ms : list (method N (flocal X A))), (forall m, In m ms -> m = dfn_method n) -> look_fixed ms.
Proof. intros X A n ms H. apply fixed_id. intros m Hm s l. rewrite (H m Hm). reflexivity. Qed.
Lemma count_ok : forall {X} (arg : N -> X) a, carries_out count_consume arg (count_method, a).
Proof. intros X arg a s s' H. cbn in *. now injection H. Qed.
Lemma count_get_ok : forall a, reads_only (count_get_method, a).
Proof. intros a s. reflexivity. Qed.
Lemma ten_ok : forall {X A} n (a : flocal X A), (0 < n)%N -> carries_out_filter (ten_filter n) f_sample f_result (ten_method n, a).
Proof.
  intros X A n a Hn s s' o H. unfold ten_filter in H. destruct (N.eqb_spec n 0); [lia|]. cbn [fst snd].
  unfold call_alone, ten_method, accesses_alone, ten_second, ten_third. cbn [m_look m_done m_crit f_load f_reg f_sample f_result].
  destruct (s mod n =? 0)%N; injection H as <- <-; cbn; auto.
Qed.
Lemma dfn_ok : forall {X A} n (a : flocal X A), carries_out_filter (dfn_filter n) f_sample f_result (dfn_method n, a).
Proof.
  intros X A n a s s' o H. unfold dfn_filter in H. cbn [fst snd]. unfold call_alone, dfn_method, accesses_alone, dfn_second, dfn_third. cbn [m_look m_done m_crit f_load f_reg f_sample f_result fst snd].
  destruct (n <? wrap64 (s + 1))%N; injection H as <- <-; auto.
Qed.
Lemma set_incr : forall bins bin, set_bin bins bin (wrap64 (nth bin bins 0%N + 1)) = incr bins bin.
Proof. induction bins as [|c bins IH]; intros [|k]; cbn [set_bin incr nth]; auto. now rewrite IH. Qed.
Lemma hist_ok : forall a, carries_out (hist_consume Release) hl_v (hist_method, a).
Proof.
  intros a s s' H. cbn [fst snd] in *. unfold hist_consume in H. destruct (h_pts s) as [|p pts] eqn:Ep; [discriminate|]. rewrite <- Ep in H.
  unfold call_alone. cbn [hist_method m_look m_done m_crit hist_look hl_skip]. destruct (outside (h_pts s) (hl_v a)) eqn:Eo; [injection H as <-; reflexivity|]. cbn [orb].
  replace (bin_number Release (h_pts s) (hl_v a)) with (Ok (bin_of (h_pts s) (hl_v a))) in H by (unfold bin_number, assert_then; destruct (_ && _); reflexivity). cbn [bind] in H. destruct (bin_of (h_pts s) (hl_v a) <? List.length (h_bins s)) eqn:Eb; cbn [negb]; injection H as <-; [|reflexivity].
  cbn [accesses_alone hist_read hist_write fst hl_bin hl_reg h_pts h_bins hist_look]. now rewrite set_incr.
Qed.
Lemma set_bin_length : forall bins bin v, List.length (set_bin bins bin v) = List.length bins.
Proof. induction bins as [|c bins IH]; intros [|k] v; cbn; auto. Qed.
Lemma hist_fixed : forall ms, (forall m, In m ms -> m = hist_method) -> look_fixed ms.
Proof.
  intros ms H m m' g Hm Hm' Hg s l a. rewrite (H _ Hm). rewrite (H _ Hm') in Hg. cbn in Hg. destruct Hg as [<-|[<-|[]]]; [reflexivity|].
  cbn [hist_write fst hist_method m_look]. unfold hist_look. cbn [h_pts h_bins]. rewrite set_bin_length. reflexivity.
Qed.
Lemma mean_ok : forall {K} (F : kops K) a, carries_out (mean_consume F) ml_x (mean_method F, a).
Proof.
  intros K F a s s' H. cbn [fst snd] in *. unfold mean_consume in H. unfold call_alone, mean_method, accesses_alone, mean_second, mean_third, mean_fourth, mean_load.
  cbn [m_look m_done m_crit ml_x ml_n ml_mean mv_n mv_mean fst]. destruct (mv_n s =? 0)%N eqn:E; cbn [mv_n mv_mean ml_x ml_n ml_mean]; rewrite ?E; cbn [mv_n mv_mean ml_x ml_n ml_mean fst]; rewrite ?E; cbn [mv_n mv_mean ml_x ml_n ml_mean fst].
  - now injection H.
  - destruct (mv_mean s) as [m|] eqn:Em; [|discriminate]. destruct (same_size (ml_x a) m); [|discriminate]. now injection H.
Qed.
Lemma out_chars : forall t s (l : sample), fst (accesses_alone (List.map out_char (list_ascii_of_string t)) s l) = (s ++ t)%string.
Proof.
  induction t as [|c t IH]; intros s l; cbn [list_ascii_of_string List.map accesses_alone out_char].
  - cbn. induction s as [|d s IHs]; cbn; [reflexivity|now rewrite <- IHs].
  - rewrite IH. clear. induction s as [|d s IHs]; cbn; [reflexivity|now rewrite IHs].
Qed.
Lemma app_assoc_s : forall a b c : string, ((a ++ b) ++ c)%string = (a ++ (b ++ c))%string.
Proof. induction a as [|x a IH]; intros b c; cbn; [reflexivity|now rewrite IH]. Qed.
Lemma app_nil_s : forall a : string, (a ++ "")%string = a.
Proof. induction a as [|x a IH]; cbn; [reflexivity|now rewrite IH]. Qed.
Lemma out_ok : forall x, carries_out out_consume (fun l : sample => l) (out_method x, x).
Proof.
  intros x s s' H. cbn [fst snd] in *. unfold out_consume in H. injection H as <-. unfold call_alone. cbn [out_method m_look m_done m_crit]. rewrite out_chars.
  rewrite !write_text. cbn [String.append]. now rewrite app_assoc_s.
Qed.
Lemma whole_ok : forall {S L X} (consume : S -> X -> outcome S) (arg : L -> X) a, carries_out consume arg (whole consume arg, a).
Proof. intros S L X consume arg a s s' H. cbn in *. now rewrite H. Qed.

(** ** Counting filters *)
Lemma forwarded_length : forall {S L X A} (programs : list (list (method S L * L))) (f : filter_fn S X X A) (arg : L -> X * A) (res : L -> option (X * A)) s0 l0 sched tr st (g : nat -> nat),
  look_fixed (methods programs) -> (forall c, In c (concat programs) -> carries_out_filter f arg res c) ->
  (forall xs, List.length xs = List.length (concat programs) -> exists c ys, run_filter f s0 xs = Ok (c, ys) /\ List.length ys = g (List.length xs)) ->
  lrun true sched (linit s0 l0 programs) = (tr, st) -> all_done st -> List.length (forwarded res tr) = g (List.length (concat programs)).
Proof.
  intros S L X A programs f arg res s0 l0 sched tr st g HF HC HG H HD. destruct (filter_linear _ _ _ _ _ _ _ _ _ HF HC H HD) as (xs & Hp & Hr).
  assert (HL : List.length xs = List.length (concat programs)) by (apply Permutation_length in Hp; now rewrite map_length in Hp).
  destruct (HG xs HL) as (c & ys & E & El). destruct (Hr _ _ E) as [_ HP]. apply Permutation_length in HP. congruence.
Qed.
Theorem ten_concurrent : forall {L X A} (n : nat) (arg : L -> X * A) (res : L -> option (X * A)) (programs : list (list (method N L * L))) l0 sched tr st,
  0 < n -> (N.of_nat n < two64)%N -> look_fixed (methods programs) -> (forall c, In c (concat programs) -> carries_out_filter (ten_filter (N.of_nat n)) arg res c) ->
  lrun true sched (linit ten_init l0 programs) = (tr, st) -> all_done st -> List.length (forwarded res tr) = ceil_div (List.length (concat programs)) n.
Proof.
  intros L X A n arg res programs l0 sched tr st Hn Hb HF HC H HD. apply (forwarded_length programs (ten_filter (N.of_nat n)) arg res ten_init l0 sched tr st (fun k => ceil_div k n)); auto.
  intros xs _. destruct (ten_correct (N.of_nat n) xs) as [c E]; [lia|]. exists c. eexists. split; [exact E|]. eapply ten_count; eauto.
Qed.
Theorem dfn_concurrent : forall {L X A} (n : nat) (arg : L -> X * A) (res : L -> option (X * A)) (programs : list (list (method N L * L))) l0 sched tr st,
  (N.of_nat (List.length (concat programs)) < two64)%N -> look_fixed (methods programs) -> (forall c, In c (concat programs) -> carries_out_filter (dfn_filter (N.of_nat n)) arg res c) ->
  lrun true sched (linit dfn_init l0 programs) = (tr, st) -> all_done st -> List.length (forwarded res tr) = List.length (concat programs) - n.
Proof.
  intros L X A n arg res programs l0 sched tr st Hb HF HC H HD. apply (forwarded_length programs (dfn_filter (N.of_nat n)) arg res dfn_init l0 sched tr st (fun k => k - n)); auto.
  intros xs Hl. destruct (dfn_correct n xs) as [c E]; [now rewrite Hl|]. exists c. eexists. split; [exact E|]. apply skipn_length.
Qed.

(** ** Order-independent consumers *)
Theorem count_async : forall {L X} (programs : list (list (method N L * L))) (arg : L -> X) (is_consume : method N L * L -> bool) l0 sched tr st (ys : list X),
  look_fixed (methods programs) -> (forall c, In c (concat programs) -> if is_consume c then carries_out count_consume arg c else reads_only c) ->
  Permutation ys (map (fun c => arg (snd c)) (filter is_consume (concat programs))) ->
  lrun true sched (linit count_init l0 programs) = (tr, st) -> all_done st ->
  exists s, run_consumer count_consume count_init ys = Ok s /\ count_get (l_obj st) = count_get s.
Proof.
  intros L X programs arg is_consume l0 sched tr st ys HF HC HP H HD.
  destruct (count_consumer_perm _ ys ys (Permutation_refl _)) as (s & _ & E & _ & _). exists s. split; [exact E|].
  eapply (async_result programs count_consume count_get arg is_consume count_init l0 sched tr st ys); eauto.
  intros zs Hz. destruct (count_consumer_perm _ ys zs Hz) as (s1 & s2 & E1 & E2 & E3). exists s2. split; [exact E2|]. rewrite E in E1. injection E1 as <-. auto.
Qed.
Theorem mean_async : forall {K} (F : kops K), exact_arithmetic F ->
  forall {L} (programs : list (list (method (@mean_state K) L * L))) (arg : L -> vec K) (is_consume : method (@mean_state K) L * L -> bool) dflt l0 sched tr st (ys : list (vec K)) d,
  ys <> [] -> all_size d ys -> (len ys < two64)%N ->
  look_fixed (methods programs) -> (forall c, In c (concat programs) -> if is_consume c then carries_out (mean_consume F) arg c else reads_only c) ->
  Permutation ys (map (fun c => arg (snd c)) (filter is_consume (concat programs))) ->
  lrun true sched (linit (mean_init dflt) l0 programs) = (tr, st) -> all_done st ->
  exists s m, run_consumer (mean_consume F) (mean_init dflt) ys = Ok s /\ mean_get s = Ok m /\ mean_get (l_obj st) = Ok m.
Proof.
  intros K F HE L programs arg is_consume dflt l0 sched tr st ys d Hy Ha Hb HF HC HP H HD.
  destruct (top_mean_perm F HE dflt dflt ys ys d Hy Ha Hb (Permutation_refl _)) as (s & _ & m & E & _ & G & _). exists s, m. split; [exact E|]. split; [exact G|].
  eapply (async_result programs (mean_consume F) mean_get arg is_consume (mean_init dflt) l0 sched tr st ys); eauto.
  intros zs Hz. destruct (top_mean_perm F HE dflt dflt ys zs d Hy Ha Hb Hz) as (s1 & s2 & m' & E1 & E2 & G1 & G2). exists s2. split; [exact E2|]. rewrite E in E1. injection E1 as <-. congruence.
Qed.
Theorem cov_async : forall {K} (F : kops K), exact_arithmetic F ->
  forall {L} (programs : list (list (method (@cov_state K) L * L))) (arg : L -> vec K) (is_consume : method (@cov_state K) L * L -> bool) garbage l0 sched tr st (ys : list (vec K)) d i j,
  2 <= List.length ys -> all_size d ys -> (len ys < two64)%N -> i < d -> j < d ->
  look_fixed (methods programs) -> (forall c, In c (concat programs) -> if is_consume c then carries_out (cov_consume F) arg c else reads_only c) ->
  Permutation ys (map (fun c => arg (snd c)) (filter is_consume (concat programs))) ->
  lrun true sched (linit (cov_init garbage) l0 programs) = (tr, st) -> all_done st ->
  exists s, run_consumer (cov_consume F) (cov_init garbage) ys = Ok s /\ fst (cov_get (l_obj st)) = fst (cov_get s) /\ snd (cov_get (l_obj st)) i j = snd (cov_get s) i j.
Proof.
  intros K F HE L programs arg is_consume garbage l0 sched tr st ys d i j Hy Ha Hb Hi Hj HF HC HP H HD.
  destruct (top_cov_perm F HE garbage garbage ys ys d Hy Ha Hb (Permutation_refl _)) as (s & _ & E & _ & G & _ & _). exists s. split; [exact E|].
  assert (HX : (fst (cov_get (l_obj st)), snd (cov_get (l_obj st)) i j) = (fst (cov_get s), snd (cov_get s) i j)); [|now injection HX].
  eapply (async_result programs (cov_consume F) (fun s => (fst (cov_get s), snd (cov_get s) i j)) arg is_consume (cov_init garbage) l0 sched tr st ys); eauto.
  intros zs Hz. destruct (top_cov_perm F HE garbage garbage ys zs d Hy Ha Hb Hz) as (s1 & s2 & E1 & E2 & G1 & G2 & G3). exists s2. split; [exact E2|]. rewrite E in E1. injection E1 as <-.
  rewrite G1, G2. f_equal. symmetry. auto.
Qed.
Theorem hist_async : forall {L} (b : build) (programs : list (list (method hist L * L))) (arg : L -> dbl) (is_consume : method hist L * L -> bool) pts n l0 sched tr st (ys : list dbl),
  subdivision pts -> List.length pts = n + 1 -> (forall v, In v ys -> v <> DNaN) -> (N.of_nat (List.length ys) < two64)%N ->
  look_fixed (methods programs) -> (forall c, In c (concat programs) -> if is_consume c then carries_out (hist_consume b) arg c else reads_only c) ->
  Permutation ys (map (fun c => arg (snd c)) (filter is_consume (concat programs))) ->
  lrun true sched (linit {| h_pts := pts; h_bins := repeat 0%N n |} l0 programs) = (tr, st) -> all_done st ->
  exists s rows, run_consumer (hist_consume b) {| h_pts := pts; h_bins := repeat 0%N n |} ys = Ok s /\ hist_get s = Ok rows /\ hist_get (l_obj st) = Ok rows.
Proof.
  intros L b programs arg is_consume pts n l0 sched tr st ys Hs Hl Hv Hb HF HC HP H HD.
  destruct (hist_perm b pts n ys ys Hs Hl Hv Hb (Permutation_refl _)) as (s & _ & rows & E & _ & G & _). exists s, rows. split; [exact E|]. split; [exact G|].
  eapply (async_result programs (hist_consume b) hist_get arg is_consume _ l0 sched tr st ys); eauto.
  intros zs Hz. destruct (hist_perm b pts n ys zs Hs Hl Hv Hb Hz) as (s1 & s2 & r' & E1 & E2 & G1 & G2). exists s2. split; [exact E2|]. rewrite E in E1. injection E1 as <-. congruence.
Qed.
Theorem phist_async : forall {L} (b : build) (programs : list (list (method phist L * L))) (arg : L -> list dbl) (is_consume : method phist L * L -> bool) xp yp nx ny garbage l0 sched tr st (ys : list (list dbl)),
  subdivision xp -> subdivision yp -> List.length xp = nx + 1 -> List.length yp = ny + 1 ->
  (forall v, In v ys -> List.length v = 2 /\ Forall (fun c => c <> DNaN) v) -> (N.of_nat nx * N.of_nat ny <= 2 ^ 32)%N -> (forall i j, (garbage i j < 2 ^ 64)%N) ->
  look_fixed (methods programs) -> (forall c, In c (concat programs) -> if is_consume c then carries_out (phist_consume b) arg c else reads_only c) ->
  Permutation ys (map (fun c => arg (snd c)) (filter is_consume (concat programs))) ->
  let s0 := {| ph_x := xp; ph_y := yp; ph_rows := nx; ph_cols := ny; ph_bins := garbage |} in
  lrun true sched (linit s0 l0 programs) = (tr, st) -> all_done st ->
  exists s rows, run_consumer (phist_consume b) s0 ys = Ok s /\ phist_get s = Ok rows /\ phist_get (l_obj st) = Ok rows.
Proof.
  intros L b programs arg is_consume xp yp nx ny garbage l0 sched tr st ys Hx Hy Hlx Hly Hv Hb Hg HF HC HP s0 H HD.
  destruct (phist_perm b xp yp nx ny garbage ys ys Hx Hy Hlx Hly Hv Hb Hg (Permutation_refl _)) as (s & _ & rows & E & _ & G & _). exists s, rows. split; [exact E|]. split; [exact G|].
  eapply (async_result programs (phist_consume b) phist_get arg is_consume s0 l0 sched tr st ys); eauto.
  intros zs Hz. destruct (phist_perm b xp yp nx ny garbage ys zs Hx Hy Hlx Hly Hv Hb Hg Hz) as (s1 & s2 & r' & E1 & E2 & G1 & G2). exists s2. split; [exact E2|]. pose proof (eq_trans (eq_sym E) E1) as EE. injection EE as <-. congruence.
Qed.
(** ** StreamOutput *)
Theorem out_concurrent : forall {L} (programs : list (list (method string L * L))) (arg : L -> sample) l0 sched tr st,
  Forall texts_ok (map (fun c => arg (snd c)) (concat programs)) ->
  look_fixed (methods programs) -> (forall c, In c (concat programs) -> carries_out out_consume arg c) ->
  lrun true sched (linit ""%string l0 programs) = (tr, st) -> all_done st ->
  Permutation (lines (l_obj st)) (map (fun c => text (arg (snd c))) (concat programs)).
Proof.
  intros L programs arg l0 sched tr st HT HF HC H HD.
  destruct (no_lost_updates programs out_consume arg (fun _ => true) _ _ _ _ _ HF HC H HD) as (xs & HP & HS).
  assert (HE : filter (fun _ : method string L * L => true) (concat programs) = concat programs) by (clear; induction (concat programs) as [|c l IH]; cbn [filter]; [reflexivity|f_equal; exact IH]).
  rewrite HE in HP. destruct (out_lines xs) as (out & E & _ & G).
  { apply Forall_forall. intros x Hx. rewrite Forall_forall in HT. apply HT. eapply Permutation_in; eauto. }
  rewrite (HS _ E), G. rewrite <- (map_map (fun c => arg (snd c)) text). now apply Permutation_map.
Qed.
(** ** Checking finished runs by computation *)
Lemma all_done_intro : forall {S L} (st : lstate S L), forallb (fun th => match th_code th with [] => true | _ => false end) (l_threads st) = true -> all_done st.
Proof.
  intros S L st H t th Hn. rewrite forallb_forall in H. specialize (H th (nth_error_In _ _ Hn)). destruct (th_code th); [reflexivity|discriminate].
Qed.
(** ** Action *)
Lemma action_programs : forall {S X A} (user : list (S -> X * A -> S * (X * A))) (samples : list (list (X * A))) m a, In (m, a) (concat (map (map (fun xa => (action_method user, xa))) samples)) -> m = action_method user.
Proof. intros S X A user samples m a H. rewrite <- concat_map in H. apply in_map_iff in H. destruct H as (x & E & _). now injection E as <- _. Qed.
Lemma action_once : forall {S X A} (user : list (S -> X * A -> S * (X * A))) (samples : list (list (X * A))) (allow_concurrent_action : bool) (s0 : S) (l0 : X * A)
    (sched : list nat) (tr : list (levent (X * A))) (st : lstate S (X * A)),
  lrun (negb allow_concurrent_action) sched (linit s0 l0 (map (map (fun xa => (action_method user, xa))) samples)) = (tr, st) -> all_done st ->
  forall t n xa, nth_error (nth t samples []) n = Some xa ->
  exists r, filter (about t n) tr = VBegin t n :: VEnter t n xa :: repeat (VAccess t n) (List.length user) ++ [VLeave t n; VReturn t n r].
Proof.
  intros S X A user samples allow s0 l0 sched tr st H HD t n xa Hn.
  apply (each_call_once (map (map (fun xa => (action_method user, xa))) samples)) with (m := action_method user) (b := negb allow) (s0 := s0) (l0 := l0) (sched := sched) (st := st); auto.
  - intros m a Hi. rewrite (action_programs _ _ _ _ Hi). split; reflexivity.
  - change (@nil (method S (X * A) * (X * A))) with (map (fun xa : X * A => (action_method user, xa)) []). rewrite map_nth, nth_error_map, Hn. reflexivity.
Qed.
Lemma action_alone : forall {S X A} (user : list (S -> X * A -> S * (X * A))) (samples : list (list (X * A))) (s0 : S) (l0 : X * A) sched tr st t u,
  lrun true sched (linit s0 l0 (map (map (fun xa => (action_method user, xa))) samples)) = (tr, st) -> inside tr t -> inside tr u -> t = u.
Proof.
  intros S X A user samples s0 l0 sched tr st t u H. eapply mutual_exclusion; eauto. apply fixed_id. intros m Hm s l. unfold methods in Hm. apply in_map_iff in Hm. destruct Hm as ([m' a] & E & Hi). cbn in E. subst m'.
  rewrite (action_programs _ _ _ _ Hi). reflexivity.
Qed.
Lemma action_concurrent : exists (user : list (nat -> nat * unit -> nat * (nat * unit))) (samples : list (list (nat * unit))) (sched : list nat),
  let tr := fst (lrun false sched (linit 0 (0, tt) (map (map (fun xa => (action_method user, xa))) samples))) in inside tr 0 /\ inside tr 1.
Proof. exists [fun s x => (s, x)], [[(1, tt)]; [(2, tt)]], [0; 0; 0; 1; 1; 1]. vm_compute. auto. Qed.
(** ** Order-dependent consumers *)
Lemma last_depends : exists (programs : list (list (method (option nat) nat * nat))) (sched sched' : list nat),
    (forall c, In c (concat programs) -> carries_out last_consume (fun x => x) c) /\
    let st := snd (lrun true sched (linit None 0 programs)) in let st' := snd (lrun true sched' (linit None 0 programs)) in
    all_done st /\ all_done st' /\ last_get (l_obj st) <> last_get (l_obj st').
Proof.
  exists [[(whole last_consume (fun x => x), 1)]; [(whole last_consume (fun x => x), 2)]], (repeat 0 10 ++ repeat 1 10), (repeat 1 10 ++ repeat 0 10). split.
  - intros c Hc. cbn in Hc. destruct Hc as [<-|[<-|[]]]; apply whole_ok.
  - cbn zeta. split; [|split]; [apply all_done_intro; vm_compute; reflexivity|apply all_done_intro; vm_compute; reflexivity|vm_compute; discriminate].
Qed.
Lemma max_depends : exists (programs : list (list (method (max_state nat) (nat * aux) * (nat * aux)))) (sched sched' : list nat),
    (forall c, In c (concat programs) -> carries_out max_consume (fun x => x) c) /\
    let st := snd (lrun true sched (linit max_init (0, []) programs)) in let st' := snd (lrun true sched' (linit max_init (0, []) programs)) in
    all_done st /\ all_done st' /\ fst (max_get (l_obj st)) <> fst (max_get (l_obj st')).
Proof.
  pose (a := [("relative log likelihood"%string, AnyDouble (DFin (QArith_base.Qmake 0 1)))] : aux).
  exists [[(whole max_consume (fun x => x), (1, a))]; [(whole max_consume (fun x => x), (2, a))]], (repeat 0 10 ++ repeat 1 10), (repeat 1 10 ++ repeat 0 10). split.
  - intros c Hc. cbn in Hc. destruct Hc as [<-|[<-|[]]]; apply whole_ok.
  - cbn zeta. split; [|split]; [apply all_done_intro; vm_compute; reflexivity|apply all_done_intro; vm_compute; reflexivity|vm_compute; discriminate].
Qed.
