(** C166: the tables of required samples and the chunks they are plotted in (notebooks/designing_tractable_experiments.ipynb,
    cell 14) *)
From Coq Require Import ZArith Reals List Bool String Lra Lia.
From Verif Require Import Search_Model Bound_Model Bound_Spec Bound_Proofs Bound_Proofs2 Notebook_Spec Notebook_Model Notebook_Proofs Notebook_Proofs2.
Import ListNotations.
Open Scope R_scope.

(** ** Chunks *)
Fixpoint pieces {A} (nominal n cur : nat) (l : list A) : list (list A) :=
  match n with O => [] | S n' => slice cur (cur + nominal) l :: pieces nominal n' (cur + nominal) l end.
Lemma loop_fst {X Y} (xs : list X) (ys : list (list Y)) nominal n : forall cur, fst (chunk_loop xs ys nominal n cur) = pieces nominal n cur xs.
Proof. induction n as [|n IH]; intros cur; cbn [chunk_loop pieces]; [reflexivity|]. cbv zeta. rewrite <- IH. destruct (chunk_loop _ _ _ n _). reflexivity. Qed.
Lemma loop_snd {X Y} (xs : list X) (ys : list (list Y)) nominal j : forall n cur, (j < List.length ys)%nat ->
  map (fun r => nth j r []) (snd (chunk_loop xs ys nominal n cur)) = pieces nominal n cur (nth j ys []).
Proof.
  induction n as [|n IH]; intros cur J; cbn [chunk_loop pieces]; [reflexivity|]. cbv zeta. specialize (IH (cur + nominal)%nat J).
  destruct (chunk_loop _ _ _ n _). cbn [snd map] in *. rewrite IH. f_equal.
  rewrite nth_indep with (d' := slice cur (cur + nominal) []) by (now rewrite map_length). apply map_nth.
Qed.
Lemma loop_rows {X Y} (xs : list X) (ys : list (list Y)) nominal : forall n cur r, In r (snd (chunk_loop xs ys nominal n cur)) -> List.length r = List.length ys.
Proof.
  induction n as [|n IH]; intros cur r; cbn [chunk_loop]; [intros []|]. cbv zeta. specialize (IH (cur + nominal)%nat).
  destruct (chunk_loop _ _ _ n _). cbn [snd In] in *. intros [<-|H]; [apply map_length|auto].
Qed.
Lemma loop_count {X Y} (xs : list X) (ys : list (list Y)) nominal : forall n cur, List.length (snd (chunk_loop xs ys nominal n cur)) = n.
Proof.
  induction n as [|n IH]; intros cur; cbn [chunk_loop]; [reflexivity|]. cbv zeta. specialize (IH (cur + nominal)%nat).
  destruct (chunk_loop _ _ _ n _). cbn [snd List.length] in *. congruence.
Qed.
Lemma firstn_add {A} n m (l : list A) : firstn (n + m) l = (firstn n l ++ firstn m (skipn n l))%list.
Proof. revert l. induction n as [|n IH]; intros [|x l]; cbn [Nat.add firstn skipn app]; try reflexivity; [now rewrite firstn_nil|]. now rewrite IH. Qed.
Lemma skipn_add {A} n m (l : list A) : skipn (n + m) l = skipn m (skipn n l).
Proof. revert l. induction n as [|n IH]; intros [|x l]; cbn [Nat.add skipn]; try reflexivity; [now rewrite skipn_nil|]. apply IH. Qed.
Lemma pieces_concat {A} nominal (l : list A) : forall n cur, List.concat (pieces nominal n cur l) = firstn (n * nominal) (skipn cur l).
Proof.
  induction n as [|n IH]; intros cur; cbn [pieces List.concat]; [reflexivity|]. rewrite IH, skipn_add. unfold slice. replace (cur + nominal - cur)%nat with nominal by lia.
  cbn [Nat.mul]. rewrite firstn_add. reflexivity.
Qed.
Lemma pieces_lengths {A} nominal (l : list A) : forall n cur, (cur + n * nominal <= List.length l)%nat -> map (@List.length A) (pieces nominal n cur l) = repeat nominal n.
Proof.
  induction n as [|n IH]; intros cur H; cbn [pieces map repeat]; [reflexivity|]. cbn [Nat.mul] in H. rewrite IH by lia. f_equal.
  unfold slice. rewrite firstn_length, skipn_length. lia.
Qed.
Lemma whole {A} c n nominal (l : list A) : List.length l = (c + n * nominal)%nat ->
  List.concat (slice 0 c l :: pieces nominal n c l) = l /\ map (@List.length A) (slice 0 c l :: pieces nominal n c l) = (c :: repeat nominal n)%list.
Proof.
  intros H. cbn [List.concat map]. rewrite pieces_concat, pieces_lengths by lia. unfold slice. cbn [skipn]. rewrite Nat.sub_0_r, firstn_length. split.
  - rewrite firstn_all2 with (n := (n * nominal)%nat); [apply firstn_skipn|]. rewrite skipn_length. lia.
  - f_equal. lia.
Qed.

(** The chunks put together are the curve again; the first has the points left over by the division, the
    others are equally long; every curve is cut at the same places. *)
Theorem chunks_exact {X Y} (xs : list X) (ys : list (list Y)) n : (0 < n)%nat -> (forall y, In y ys -> List.length y = List.length xs) ->
  exists domains ranges, partition_curves xs ys n = Some (domains, ranges) /\
    List.concat domains = xs /\
    map (@List.length X) domains = (List.length xs / n + List.length xs mod n)%nat :: repeat (List.length xs / n)%nat (n - 1) /\
    List.length ranges = n /\ (forall r, In r ranges -> List.length r = List.length ys) /\
    forall j y, nth_error ys j = Some y ->
      List.concat (map (fun r => nth j r []) ranges) = y /\ map (fun r => List.length (nth j r [])) ranges = map (@List.length X) domains.
Proof.
  intros N Ly. destruct n as [|n]; [lia|]. unfold partition_curves. cbv zeta.
  set (q := (List.length xs / S n)%nat). set (c := (q + (List.length xs - q * S n))%nat).
  pose proof (Nat.div_mod (List.length xs) (S n) ltac:(lia)) as D. fold q in D.
  assert (E : List.length xs = (c + n * q)%nat) by (unfold c; nia).
  assert (Ec : c = (q + List.length xs mod S n)%nat) by (unfold c; nia).
  pose proof (loop_fst xs ys q n c) as L1. pose proof (fun j => loop_snd xs ys q j n c) as L2.
  pose proof (loop_rows xs ys q n c) as L3. pose proof (loop_count xs ys q n c) as L4.
  destruct (chunk_loop xs ys q n c) as [ds rs]. cbn [fst snd] in *. subst ds.
  destruct (whole c n q xs E) as [W1 W2].
  eexists _, _. split; [reflexivity|]. split; [exact W1|]. split; [rewrite W2, Ec; cbn; now rewrite Nat.sub_0_r|].
  split; [cbn; now rewrite L4|]. split; [intros r [<-|H]; [apply map_length|auto]|].
  intros j y J. assert (Jl : (j < List.length ys)%nat) by (apply nth_error_Some; congruence).
  specialize (L2 j Jl). rewrite (nth_error_nth ys j [] J) in L2.
  assert (F : map (fun r => nth j r []) (map (slice 0 c) ys :: rs) = slice 0 c y :: pieces q n c y).
  { cbn [map]. rewrite L2. f_equal. rewrite nth_indep with (d' := slice 0 c []) by (now rewrite map_length). rewrite map_nth. f_equal. apply (nth_error_nth ys j [] J). }
  assert (Ey : List.length y = (c + n * q)%nat) by (rewrite <- E; apply Ly; eapply nth_error_In; exact J).
  destruct (whole c n q y Ey) as [V1 V2]. rewrite F. split; [exact V1|].
  rewrite W2, <- V2, <- F, map_map. reflexivity.
Qed.
Print Assumptions chunks_exact.
Example no_chunks : partition_curves [1; 2]%nat [["a"; "b"]]%string 0 = None.
Proof. reflexivity. Qed.
Example chunks_ex : partition_curves [1; 2; 3; 4; 5; 6; 7]%nat [["a"; "b"; "c"; "d"; "e"; "f"; "g"]; ["h"; "i"; "j"; "k"; "l"; "m"; "n"]]%string 3 =
  Some ([[1; 2; 3]; [4; 5]; [6; 7]]%nat,
        [[["a"; "b"; "c"]; ["h"; "i"; "j"]]; [["d"; "e"]; ["k"; "l"]]; [["f"; "g"]; ["m"; "n"]]]%string).
Proof. reflexivity. Qed.

(** ** The tables of required samples *)
(** what the cell of a volume holds *)
Definition holds (vc : nat) (gam thresh : R) (rho : option R) (v : option Z) : Prop :=
  match rho with
  | Some r => r < thresh /\ v = None \/ thresh <= r /\ exists z, v = Some z /\ least_count r vc gam z
  | None => v = None
  end.
Lemma row_spec vc sp thresh fuel : -1 < sp < 1 -> forall rhos columns row, batch_row vc sp thresh fuel columns rhos = Done row ->
  List.length row = columns /\ (forall j r, nth_error rhos j = Some r -> thresh <= r -> (j < columns)%nat) /\
  forall j v, nth_error row j = Some v -> holds vc (1 - sp) thresh (nth_error rhos j) v.
Proof.
  intros Hs. induction rhos as [|rho rhos IH]; intros columns row H; cbn [batch_row] in H.
  - injection H as <-. split; [apply repeat_length|]. split; [intros [|j] r; discriminate|]. intros j v E.
    replace (nth_error [] j) with (@None R) by (destruct j; reflexivity). cbn. apply nth_error_In, repeat_spec in E. exact E.
  - destruct (Rlt_dec rho thresh) as [T|T].
    + destruct columns as [|n].
      * destruct (IH O row H) as (L & A & B). destruct row; [|discriminate]. split; [reflexivity|]. split.
        -- intros [|j] r E G; cbn in E; [injection E as <-; lra|]. specialize (A j r E G). lia.
        -- intros [|j] v; discriminate.
      * destruct (batch_row vc sp thresh fuel n rhos) as [l| | | |] eqn:E; try discriminate. injection H as <-. destruct (IH n l E) as (L & A & B).
        split; [cbn; now rewrite L|]. split.
        -- intros [|j] r F G; [lia|]. cbn in F. specialize (A j r F G). lia.
        -- intros [|j] v F; cbn in F |- *; [injection F as <-; left; auto|]. exact (B j v F).
    + destruct (doubling_sample_search_over_log2_prob_bound _ _ fuel) as [z| | |] eqn:ES; try discriminate. destruct columns as [|n]; [discriminate|].
      destruct (batch_row vc sp thresh fuel n rhos) as [l| | | |] eqn:E; try discriminate. injection H as <-. destruct (IH n l E) as (L & A & B).
      split; [cbn; now rewrite L|]. split.
      * intros [|j] r F G; [lia|]. cbn in F. specialize (A j r F G). lia.
      * intros [|j] v F; cbn in F |- *; [injection F as <-|exact (B j v F)]. right. split; [lra|]. exists z. split; [reflexivity|].
        unfold doubling_sample_search_over_log2_prob_bound in ES. apply (g_search_least rho (1 - sp) vc ltac:(lra) fuel). exact ES.
Qed.
Lemma rows_spec vc thresh fuel columns vols : forall sps rows, batch_rows vc sps thresh fuel columns vols = Done rows ->
  List.length rows = List.length sps /\
  forall k sp, nth_error sps k = Some sp -> exists rhos row, vols = Some rhos /\ nth_error rows k = Some row /\ batch_row vc sp thresh fuel columns rhos = Done row.
Proof.
  induction sps as [|sp sps IH]; intros rows H; cbn [batch_rows] in H.
  - injection H as <-. split; [reflexivity|]. intros [|k] s; discriminate.
  - destruct vols as [rhos|]; [|discriminate]. destruct (batch_row vc sp thresh fuel columns rhos) as [row| | | |] eqn:E; try discriminate.
    destruct (batch_rows vc sps thresh fuel columns (Some rhos)) as [t| | | |]; try discriminate. injection H as <-. destruct (IH t eq_refl) as (L & A).
    split; [cbn; now rewrite L|]. intros [|k] s F; cbn in F; [injection F as <-; exists rhos, row; auto|]. exact (A k s F).
Qed.
Lemma loop_spec sps thresh fuel columns vols : forall ds i T, batch_loop ds sps thresh fuel columns i vols = Done T ->
  List.length T = List.length ds /\
  forall k d, nth_error ds k = Some d -> exists rows, nth_error T k = Some rows /\ batch_rows (d + 1) sps thresh fuel columns (nth_error vols (i + k)) = Done rows.
Proof.
  induction ds as [|d ds IH]; intros i T H; cbn [batch_loop] in H.
  - injection H as <-. split; [reflexivity|]. intros [|k] s; discriminate.
  - destruct (batch_rows (d + 1) sps thresh fuel columns (nth_error vols i)) as [rows| | | |] eqn:E; try discriminate.
    destruct (batch_loop ds sps thresh fuel columns (S i) vols) as [t| | | |] eqn:F; try discriminate. injection H as <-. destruct (IH _ t F) as (L & A).
    split; [cbn; now rewrite L|]. intros [|k] s G; cbn in G; [injection G as <-; exists rows; rewrite Nat.add_0_r; auto|].
    destruct (A k s G) as (r & P & Q). exists r. rewrite <- (plus_n_Sm i k). split; [exact P|exact Q].
Qed.

(** A table that is returned has one row for every dimension and probability, and each of its cells is the
    least sufficient count for its volume, or empty below the threshold and where no volume was given. *)
Theorem batch_table ds sps columns vols thresh fuel T : (forall sp, In sp sps -> -1 < sp < 1) ->
  batch_net_search ds sps columns vols thresh fuel = Done T ->
  List.length T = List.length ds /\
  forall i d, nth_error ds i = Some d -> exists rows, nth_error T i = Some rows /\ List.length rows = List.length sps /\
    forall k sp, nth_error sps k = Some sp -> exists rhos row, nth_error vols i = Some rhos /\ nth_error rows k = Some row /\ List.length row = columns /\
      (forall j r, nth_error rhos j = Some r -> thresh <= r -> (j < columns)%nat) /\
      forall j v, nth_error row j = Some v -> holds (d + 1) (1 - sp) thresh (nth_error rhos j) v.
Proof.
  intros Hs H. destruct (loop_spec _ _ _ _ _ _ _ _ H) as (L & A). split; [exact L|]. intros i d D. destruct (A i d D) as (rows & R1 & R2).
  destruct (rows_spec _ _ _ _ _ _ _ R2) as (L2 & B). exists rows. split; [exact R1|]. split; [exact L2|]. intros k sp K.
  destruct (B k sp K) as (rhos & row & V & Rk & E). destruct (row_spec (d + 1) sp thresh fuel (Hs sp (nth_error_In _ _ K)) rhos columns row E) as (X & Y & Z).
  exists rhos, row. auto 10.
Qed.
Print Assumptions batch_table.

(** Within a table more volume or a smaller probability of success never needs more samples. *)
Theorem batch_order ds sps columns vols thresh fuel T i rows k k' sp sp' row row' rhos j j' r r' z z' :
  (forall sp, In sp sps -> -1 < sp < 1) -> batch_net_search ds sps columns vols thresh fuel = Done T ->
  nth_error T i = Some rows -> nth_error vols i = Some rhos -> nth_error sps k = Some sp -> nth_error sps k' = Some sp' ->
  nth_error rows k = Some row -> nth_error rows k' = Some row' -> nth_error rhos j = Some r -> nth_error rhos j' = Some r' ->
  nth_error row j = Some (Some z) -> nth_error row' j' = Some (Some z') -> r' <= r -> sp <= sp' -> (z <= z')%Z.
Proof.
  intros Hs H Ti Vi Sk Sk' Rk Rk' Jr Jr' Rz Rz' Hr Hp. destruct (batch_table _ _ _ _ _ _ _ Hs H) as (L & A).
  destruct (nth_error ds i) as [d|] eqn:D; [|apply nth_error_None in D; assert (i < List.length T)%nat by (apply nth_error_Some; congruence); lia].
  destruct (A i d D) as (rows0 & E & _ & B). rewrite Ti in E. injection E as <-.
  destruct (B k sp Sk) as (rh & rw & E1 & E2 & _ & _ & C). rewrite Vi in E1. injection E1 as <-. rewrite Rk in E2. injection E2 as <-.
  destruct (B k' sp' Sk') as (rh & rw & E1 & E2 & _ & _ & C'). rewrite Vi in E1. injection E1 as <-. rewrite Rk' in E2. injection E2 as <-.
  specialize (C j _ Rz). rewrite Jr in C. specialize (C' j' _ Rz'). rewrite Jr' in C'. cbn in C, C'.
  destruct C as [[_ ?]|(_ & y & [= <-] & C)]; [discriminate|]. destruct C' as [[_ ?]|(_ & y' & [= <-] & C')]; [discriminate|].
  apply (least_mono r r' (d + 1) (1 - sp) (1 - sp')); auto; lra.
Qed.
Print Assumptions batch_order.

(** The tables of the notebook are returned: dimensions up to twenty, the notebook's threshold and probabilities. *)
Lemma search_any rho vc gam fuel : 1 / 10 ^ 12 <= rho -> (1 <= vc <= 21)%nat -> 1 / 10 ^ 6 <= gam < 2 -> (1000 <= fuel)%nat ->
  exists z, doubling_search Rgeb Rgtb (fun m => compute_sauer_shelah_bound_log2 m rho vc) (log2R gam) fuel = Ret z.
Proof.
  intros Hr Hv Hg Hf. set (e := Rmin rho 1). assert (He : 1 / 10 ^ 12 <= e <= 1) by (unfold e, Rmin; destruct (Rle_dec rho 1); lra).
  assert (Her : e <= rho) by apply Rmin_l.
  assert (HB : blumer e gam vc <= (4 + 8 * INR vc) / (1 / 10 ^ 12) * INR 44) by (apply (blumer_upper _ _ _ _ (1 / 10 ^ 6)); lra).
  assert (HV : 1 <= INR vc <= 21).
  { split; [replace 1 with (INR 1) by reflexivity|replace 21 with (INR 21) by (rewrite INR_IZR_INZ; reflexivity)]; apply le_INR; lia. }
  assert (HB2 : blumer e gam vc <= 2 ^ 53 - 1).
  { eapply Rle_trans; [exact HB|]. rewrite pow2_53. rewrite (INR_IZR_INZ 44). simpl (IZR (Z.of_nat 44)). unfold Rdiv. rewrite Rinv_mult, Rinv_inv. lra. }
  destruct (nat_above (blumer e gam vc)) as (m & Hm1 & Hm2); [pose proof (blumer_large e gam vc ltac:(lra) ltac:(lia)); lra|].
  apply (g_search_total rho gam vc ltac:(lra) m); [| |exact Hf].
  - apply le_IZR. rewrite <- INR_IZR_INZ. replace (IZR (2 ^ 53)) with (2 ^ 53); [lra|]. rewrite (pow_IZR 2 53). reflexivity.
  - eapply Rle_trans; [apply (nfb_anti e); exact Her|]. apply blumer_enough; [lra|lia|lra|lra].
Qed.
Theorem batch_runs ds sps columns vols thresh fuel : (forall d, In d ds -> (d <= 20)%nat) -> (forall sp, In sp sps -> -1 < sp <= 99 / 100) ->
  1 / 10 ^ 12 <= thresh -> (1000 <= fuel)%nat -> (List.length ds <= List.length vols)%nat -> (forall rhos, In rhos vols -> (List.length rhos <= columns)%nat) ->
  exists T, batch_net_search ds sps columns vols thresh fuel = Done T.
Proof.
  intros Hd Hs Ht Hf Hl Hc.
  assert (R1 : forall vc sp, (1 <= vc <= 21)%nat -> -1 < sp <= 99 / 100 -> forall rhos n, (List.length rhos <= n)%nat -> exists row, batch_row vc sp thresh fuel n rhos = Done row).
  { intros vc sp Hv Hp. induction rhos as [|r rhos IH]; intros n Hn; cbn [batch_row]; [eauto|]. cbn [List.length] in Hn. destruct n as [|n]; [lia|]. destruct (IH n) as (l & El); [lia|].
    rewrite El. destruct (Rlt_dec r thresh); [eauto|]. unfold doubling_sample_search_over_log2_prob_bound.
    destruct (search_any r vc (1 - sp) fuel) as (z & Ez); [lra|assumption|lra|assumption|]. rewrite Ez. eauto. }
  assert (R2 : forall vc rhos, (1 <= vc <= 21)%nat -> (List.length rhos <= columns)%nat -> forall l, (forall sp, In sp l -> -1 < sp <= 99 / 100) -> exists rows, batch_rows vc l thresh fuel columns (Some rhos) = Done rows).
  { intros vc rhos Hv Hr. induction l as [|sp l IH]; intros Hp; cbn [batch_rows]; [eauto|]. destruct (R1 vc sp Hv (Hp sp (or_introl eq_refl)) rhos columns Hr) as (row & ->).
    destruct IH as (t & ->); [intros; apply Hp; now right|]. eauto. }
  unfold batch_net_search.
  assert (G : forall l i, (forall d, In d l -> (d <= 20)%nat) -> (i + List.length l <= List.length vols)%nat -> exists T, batch_loop l sps thresh fuel columns i vols = Done T).
  { induction l as [|d l IH]; intros i Dl Li; cbn [batch_loop]; [eauto|]. cbn [List.length] in Li.
    destruct (nth_error vols i) as [rhos|] eqn:V; [|apply nth_error_None in V; lia].
    destruct (R2 (d + 1)%nat rhos) with (l := sps) as (rows & ->); [specialize (Dl d (or_introl eq_refl)); lia|apply Hc; eapply nth_error_In; exact V|exact Hs|].
    destruct (IH (S i)) as (t & ->); [intros; apply Dl; now right|lia|]. eauto. }
  apply G; [exact Hd|lia].
Qed.
Print Assumptions batch_runs.
(** the probabilities and the threshold of cell 16, two dimensions, a volume above one and one below the threshold *)
Example batch_ex : exists T, batch_net_search [2; 3]%nat [1 / 100; 1 / 10; 1 / 2; 9 / 10; 99 / 100] 3 [[1 / 10; 2; 0]; [1 / 100; 1 / 50]] (1 / 10 ^ 12) 1000 = Done T /\
  forall rows row v, nth_error T 1 = Some rows -> nth_error rows 4 = Some row -> nth_error row 2 = Some v -> v = None.
Proof.
  destruct (batch_runs [2; 3]%nat [1 / 100; 1 / 10; 1 / 2; 9 / 10; 99 / 100] 3 [[1 / 10; 2; 0]; [1 / 100; 1 / 50]] (1 / 10 ^ 12) 1000) as (T & E).
  - intros d [<-|[<-|[]]]; lia.
  - intros sp H; cbn in H; decompose [or] H; try contradiction; subst; lra.
  - lra.
  - lia.
  - cbn; lia.
  - intros rhos [<-|[<-|[]]]; cbn; lia.
  - exists T. split; [exact E|]. intros rows row v T1 R4 V.
    assert (Hs : forall sp, In sp [1 / 100; 1 / 10; 1 / 2; 9 / 10; 99 / 100] -> -1 < sp < 1).
    { intros sp H; cbn in H; decompose [or] H; try contradiction; subst; lra. }
    destruct (batch_table _ _ _ _ _ _ _ Hs E) as (_ & A).
    destruct (A 1%nat 3%nat eq_refl) as (rows' & E1 & _ & B). rewrite T1 in E1. injection E1 as <-.
    destruct (B 4%nat _ eq_refl) as (rh & rw & E2 & E3 & _ & _ & C). rewrite R4 in E3. injection E3 as <-. cbn in E2. injection E2 as <-. exact (C 2%nat v V).
Qed.
