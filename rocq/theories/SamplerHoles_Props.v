(** Property C149: the region that is triangulated for sampling (nonasymptotic/sampler.py 20-102). *)
From Coq Require Import Reals List Bool Arith Lra Lia Psatz Classical Ranalysis Permutation.
From Verif Require Import Plane Sat_Model World_Props Sampler_Model Sampler_Props SamplerHoles_Model.
Import ListNotations.
Open Scope R_scope.

(** ** Specification *)
Definition inside (S T : rpt -> Prop) : Prop := forall x, S x -> T x.
Definition apart (S T : rpt -> Prop) : Prop := forall x, S x -> T x -> False.
(** a disc is bounded, and one cannot leave it without crossing its edge *)
Definition disc_ok (d : disc) : Prop :=
  (forall c, curve c -> ins d (c 0) -> ~ ins d (c 1) -> exists t, 0 <= t <= 1 /\ edge d (c t)) /\
  (exists M, forall x, ins d x -> Rmax (Rabs (fst x)) (Rabs (snd x)) <= M) /\ apart (ins d) (edge d).

Section Spec.
  Context {V : Type}.
  Variable shape_of : list V -> disc.
  Definition within (r : list V) : rpt -> Prop := ins (shape_of r).
  (** the points of a polygon that are not on its rings *)
  Definition region (p : poly V) (x : rpt) : Prop := within (exterior p) x /\ ~ edge (shape_of (exterior p)) x /\
    forall h, In h (holes p) -> ~ within h x /\ ~ edge (shape_of h) x.
  (** holes are inside the exterior and do not overlap *)
  Definition poly_ok (p : poly V) : Prop := (forall h, In h (holes p) -> inside (within h) (within (exterior p))) /\
    (forall i j h k, nth_error (holes p) i = Some h -> nth_error (holes p) j = Some k -> i <> j -> apart (within h) (within k)) /\
    exists x, region p x.
  (** two polygons are side by side, or one is in a hole of the other *)
  Definition polys_ok (p q : poly V) : Prop := apart (within (exterior p)) (within (exterior q)) \/
    (exists h, In h (holes p) /\ inside (within (exterior q)) (within h)) \/
    (exists h, In h (holes q) /\ inside (within (exterior p)) (within h)).
  Definition valid (polys : list (poly V)) : Prop :=
    (forall r, In r (mpoly_rings polys) -> disc_ok (shape_of r)) /\ (forall p, In p polys -> poly_ok p) /\
    forall i j p q, nth_error polys i = Some p -> nth_error polys j = Some q -> i <> j -> polys_ok p q.
  (** shapely's covers on the discs of rings *)
  Definition covers_ok (rings : list (list V)) (cov : list V -> list V -> bool) : Prop := forall h e, In h rings -> In e rings ->
    (cov h e = true <-> inside (within e) (within h)).
End Spec.
Definition surface_ok (point_on_surface : (rpt -> Prop) -> option rpt) : Prop := forall S,
  match point_on_surface S with Some x => S x | None => forall x, ~ S x end.

(** ** Lemmas *)
Lemma in_coordinates ps x : In x (coordinates ps) <-> In (Some x) ps.
Proof.
  unfold coordinates. rewrite in_flat_map. split.
  - intros ([y|] & I & H); [destruct H as [->|[]]; auto|destruct H].
  - intro I. exists (Some x). split; auto. now left.
Qed.

Section Lemmas.
  Context {V : Type}.
  Variable shape_of : list V -> disc.
  Variable cov : list V -> list V -> bool.
  Variable pos : (rpt -> Prop) -> option rpt.
  Implicit Types (polys : list (poly V)) (p q : poly V) (h r e : list V).
  Notation within := (within shape_of).
  Notation region := (region shape_of).
  Notation reach := (reach shape_of).
  Notation interior_poly := (interior_poly shape_of cov).

  Lemma in_rings_ext polys p : In p polys -> In (exterior p) (mpoly_rings polys).
  Proof. intro I. unfold mpoly_rings. apply in_or_app. left. now apply in_map. Qed.
  Lemma in_rings_hole polys p h : In p polys -> In h (holes p) -> In h (mpoly_rings polys).
  Proof.
    intros I H. apply (Permutation_in _ (Permutation_sym (mpoly_rings_complete polys))). apply in_flat_map. exists p. split; auto. now right.
  Qed.
  Lemma in_interior polys h : In h (interior_rings polys) <-> exists p, In p polys /\ In h (holes p).
  Proof.
    rewrite <- in_flat_map. split; apply Permutation_in; [|symmetry]; apply interior_rings_complete.
  Qed.
  Lemma take_all l : forall S x, fold_left (take_away shape_of) l S x <-> S x /\ forall e, In e l -> ~ (within e x \/ edge (shape_of e) x).
  Proof.
    clear cov pos. induction l as [|e l IH]; intros S x; cbn [fold_left In].
    - split; [intro H; split; auto; intros e []|tauto].
    - rewrite IH. unfold take_away. split.
      + intros [[A B] C]. split; auto. intros e' [<-|I]; auto.
      + intros [A B]. split; [split; auto; apply B; auto|]. intros e' I. apply B. auto.
  Qed.
  Lemma interior_poly_iff exts h x : interior_poly exts h x <->
    within h x /\ forall e, In e exts -> cov h e = true -> ~ (within e x \/ edge (shape_of e) x).
  Proof.
    clear pos. unfold SamplerHoles_Model.interior_poly. rewrite take_all. split; intros [A B]; split; auto; intros e I.
    - intro C. apply B, filter_In. auto.
    - apply filter_In in I as [I C]. auto.
  Qed.

  (** A hole point is in its hole and in no polygon. *)
  Theorem hole_points_outside polys s : valid shape_of polys -> covers_ok shape_of (mpoly_rings polys) cov -> surface_ok pos ->
    In s (interior_points shape_of cov pos polys) ->
    (exists p h, In p polys /\ In h (holes p) /\ within h s) /\ forall q, In q polys -> ~ region q s.
  Proof.
    intros (D & P & PQ) C S I. unfold interior_points in I. apply in_coordinates, in_map_iff in I as (h & Es & Ih).
    apply in_interior in Ih as (p & Ip & Ih). specialize (S (interior_poly (map exterior polys) h)). rewrite Es in S.
    apply interior_poly_iff in S as [Sh Se].
    split; [exists p, h; auto|]. intros q Iq Rq. pose proof Rq as (Rq1 & _ & Rq2).
    destruct (In_nth_error _ _ Ip) as (i & Ei). destruct (In_nth_error _ _ Iq) as (j & Ej).
    destruct (Nat.eq_dec i j) as [<-|N].
    - rewrite Ei in Ej. injection Ej as <-. exact (proj1 (Rq2 h Ih) Sh).
    - destruct (P p Ip) as (Hin & Hap & _). destruct (PQ i j p q Ei Ej N) as [A|[(k & Ik & A)|(k & Ik & A)]].
      + apply (A s); auto. now apply (Hin h).
      + destruct (In_nth_error _ _ Ih) as (a & Ea). destruct (In_nth_error _ _ Ik) as (b & Eb).
        destruct (Nat.eq_dec a b) as [<-|Nab]; [|apply (Hap a b h k Ea Eb Nab s); auto].
        rewrite Ea in Eb. injection Eb as <-. apply (Se (exterior q)); [now apply in_map| |now left].
        apply C; auto; [now apply (in_rings_hole polys p)|now apply in_rings_ext].
      + apply (proj1 (Rq2 k Ik)). apply A, (Hin h); auto.
  Qed.

  Lemma curve_back c : curve c -> curve (fun t => c (1 - t)).
  Proof.
    intros [A B]. assert (L : continuity (fun t => 1 - t)).
    { apply (continuity_minus (fun _ => 1) (fun t => t)); [apply continuity_const; intros x y; reflexivity|apply derivable_continuous, derivable_id]. }
    split; [apply (continuity_comp (fun t => 1 - t) (fun t => fst (c t)))|apply (continuity_comp (fun t => 1 - t) (fun t => snd (c t)))]; auto.
  Qed.
  Lemma reach_sym rings a b : reach rings a b -> reach rings b a.
  Proof.
    intros (c & C & A & B & N). exists (fun t => c (1 - t)). split; [now apply curve_back|].
    split; [now rewrite Rminus_0_r|]. split; [now rewrite Rminus_eq_0|]. intros t Ht. apply N. lra.
  Qed.
  Lemma reach_stays rings r a b : In r rings -> disc_ok (shape_of r) -> reach rings a b -> within r a -> within r b.
  Proof.
    intros I (D & _) (c & C & A & B & N) Wa. destruct (classic (within r b)) as [|Nb]; auto. exfalso.
    destruct (D c C) as (t & Ht & E); [now rewrite A|now rewrite B|]. apply (N t Ht). exists r. auto.
  Qed.
  Lemma reach_same rings r a b : In r rings -> disc_ok (shape_of r) -> reach rings a b -> (within r a <-> within r b).
  Proof. intros I D R. split; [|apply reach_sym in R]; eapply reach_stays; eauto. Qed.
  Lemma reach_clear rings a b : reach rings a b -> ~ on_rings shape_of rings a /\ ~ on_rings shape_of rings b.
  Proof. intros (c & _ & <- & <- & N). split; apply N; lra. Qed.
  Lemma not_far rings r a : In r rings -> disc_ok (shape_of r) -> within r a -> ~ reach_far shape_of rings a.
  Proof.
    intros I D W F. pose proof D as (_ & (M & B) & _). destruct (F M) as (b & R & Hb). specialize (B b (reach_stays rings r a b I D R W)). lra.
  Qed.

  (** ** C149: nothing of a polygon is cut away ... *)
  Theorem polygon_triangulated polys p x : valid shape_of polys -> covers_ok shape_of (mpoly_rings polys) cov -> surface_ok pos ->
    (forall q, In q polys -> ~ region q (-100, -100)) -> In p polys -> region p x -> ~ on_rings shape_of (mpoly_rings polys) x ->
    triangulated shape_of (mpoly_rings polys) (hole_seeds (interior_points shape_of cov pos polys)) x.
  Proof.
    intros Va C S Far Ip Rx Nx. pose proof Va as (D & P & PQ). pose proof (in_rings_ext polys p Ip) as Ie. pose proof Rx as (R1 & _ & R2).
    split; auto. split; [eapply not_far; eauto|]. intros s Is Rs.
    assert (Out : ~ region p s).
    { destruct Is as [<-|Is]; [now apply Far|]. now apply (hole_points_outside polys s). }
    apply Out. destruct (reach_clear _ _ _ Rs) as [Ns _]. split; [apply (reach_same _ _ _ _ Ie (D _ Ie) Rs); auto|].
    split; [intro E; apply Ns; exists (exterior p); auto|]. intros h Ih. pose proof (in_rings_hole polys p h Ip Ih) as Ih'. split.
    - intro Hs. apply (proj1 (R2 h Ih)). now apply (reach_same _ _ _ _ Ih' (D _ Ih') Rs).
    - intro E. apply Ns. exists h. auto.
  Qed.

  Lemma filter_less {A} (f g : A -> bool) l (e : A) : (forall a, In a l -> f a = true -> g a = true) -> In e l -> g e = true -> f e = false ->
    (length (filter f l) < length (filter g l))%nat.
  Proof.
    intros H I Ge Fe. induction l as [|a l IH]; [destruct I|]. cbn [filter].
    assert (Le : (length (filter f l) <= length (filter g l))%nat).
    { assert (Hl : forall b, In b l -> f b = true -> g b = true) by (intros; apply H; auto; now right). clear - Hl. induction l as [|b l IH]; cbn [filter]; auto.
      assert (IH' : (length (filter f l) <= length (filter g l))%nat) by (apply IH; intros; apply Hl; auto; now right).
      destruct (f b) eqn:F; [rewrite (Hl b) by (auto; now left); cbn; lia|]. destruct (g b); cbn; lia. }
    destruct I as [->|I].
    - rewrite Ge, Fe. cbn. lia.
    - specialize (IH ltac:(intros; apply H; auto; now right) I). destruct (f a) eqn:F; [rewrite (H a) by (auto; now left); cbn; lia|]. destruct (g a); cbn; lia.
  Qed.

  (** ... and nothing else is left, provided that what remains of every hole, and the outside, hang together. *)
  Theorem triangulated_only_polygons polys x : valid shape_of polys -> covers_ok shape_of (mpoly_rings polys) cov -> surface_ok pos ->
    (forall h a b, In h (interior_rings polys) -> interior_poly (map exterior polys) h a -> interior_poly (map exterior polys) h b -> reach (mpoly_rings polys) a b) ->
    (forall a, ~ on_rings shape_of (mpoly_rings polys) a -> (forall p, In p polys -> ~ within (exterior p) a) -> reach_far shape_of (mpoly_rings polys) a) ->
    triangulated shape_of (mpoly_rings polys) (hole_seeds (interior_points shape_of cov pos polys)) x ->
    exists p, In p polys /\ region p x.
  Proof.
    intros Va C S HC OC (Nx & Nf & Ns). pose proof Va as (D & P & PQ). apply NNPP. intro No.
    assert (Hole : forall p, In p polys -> within (exterior p) x -> exists h, In h (holes p) /\ within h x).
    { intros p Ip W. apply NNPP. intro K. apply No. exists p. split; auto. split; auto. split.
      - intro E. apply Nx. exists (exterior p). split; auto. now apply in_rings_ext.
      - intros h Ih. split; [intro Wh; apply K; eauto|]. intro E. apply Nx. exists h. split; auto. now apply (in_rings_hole polys p). }
    assert (Desc : forall n p h, In p polys -> In h (holes p) -> within h x -> (length (filter (cov h) (map exterior polys)) < n)%nat -> False).
    { induction n as [|n IH]; intros p h Ip Ih Wh L; [lia|].
      assert (Ir : In h (interior_rings polys)) by (apply in_interior; eauto). pose proof (in_rings_hole polys p h Ip Ih) as Ih'.
      destruct (classic (interior_poly (map exterior polys) h x)) as [Ix|Nix].
      - specialize (S (interior_poly (map exterior polys) h)). destruct (pos (interior_poly (map exterior polys) h)) as [s|] eqn:Es; [|now apply (S x)].
        apply (Ns s); [|now apply (HC h)]. right. unfold interior_points. apply in_coordinates, in_map_iff. exists h. auto.
      - assert (Q : exists q, In q polys /\ cov h (exterior q) = true /\ within (exterior q) x).
        { apply NNPP. intro K. apply Nix, interior_poly_iff. split; auto. intros e Ie Ce [W|E].
          - apply in_map_iff in Ie as (q & <- & Iq). apply K. eauto.
          - apply Nx. exists e. split; auto. apply in_map_iff in Ie as (q & <- & Iq). now apply in_rings_ext. }
        destruct Q as (q & Iq & Cq & Wq). destruct (Hole q Iq Wq) as (k & Ik & Wk). apply (IH q k Iq Ik Wk).
        apply Nat.lt_le_trans with (length (filter (cov h) (map exterior polys))); [|lia].
        destruct (P q Iq) as (Hin & _ & (z & Rz1 & _ & Rz2)). pose proof (in_rings_ext polys q Iq) as Iq'. pose proof (in_rings_hole polys q k Iq Ik) as Ik'.
        apply (filter_less (cov k) (cov h) _ (exterior q)); auto.
        + intros e Ie Ce. assert (Ie' : In e (mpoly_rings polys)) by (apply in_map_iff in Ie as (q' & <- & Iq2); now apply in_rings_ext).
          apply (C h e Ih' Ie'). apply (C k e Ik' Ie') in Ce. apply (C h _ Ih' Iq') in Cq. intros y Y. apply Cq, (Hin k Ik), Ce, Y.
        + now apply in_map.
        + apply not_true_iff_false. intro Ck. apply (C k _ Ik' Iq') in Ck. apply (proj1 (Rz2 k Ik)). now apply Ck. }
    destruct (classic (exists p, In p polys /\ within (exterior p) x)) as [(p & Ip & W)|Out].
    - destruct (Hole p Ip W) as (h & Ih & Wh). exact (Desc _ p h Ip Ih Wh (le_n _)).
    - apply Nf, OC; auto. intros p Ip W. apply Out. eauto.
  Qed.

  (** A polygon by itself: every hole has its point. *)
  Theorem single_hole_points p s : surface_ok pos -> In s (interior_points_single shape_of pos p) ->
    (exists h, In h (holes p) /\ within h s) /\ ~ region p s.
  Proof.
    intros S I. unfold interior_points_single in I. apply in_coordinates, in_map_iff in I as (h & Es & Ih).
    specialize (S (within h)). unfold SamplerHoles_Props.within in S. rewrite Es in S. split; [exists h; auto|]. intros (_ & _ & R). now apply (proj1 (R h Ih)).
  Qed.
  (** For a single polygon what is left of a hole in the first branch of the code is the hole, as in the second. *)
  Theorem single_as_multi p : poly_ok shape_of p -> covers_ok shape_of (mpoly_rings [p]) cov ->
    forall h x, In h (holes p) -> (interior_poly (map exterior [p]) h x <-> within h x).
  Proof.
    intros (Hin & _ & (z & Rz1 & _ & Rz2)) C h x Ih. rewrite interior_poly_iff. split; [tauto|]. intro W. split; auto. intros e [<-|[]] Ce. exfalso.
    apply (C h (exterior p)) in Ce; [|apply (in_rings_hole [p] p); auto; now left|apply in_rings_ext; now left]. apply (proj1 (Rz2 h Ih)). now apply Ce.
  Qed.
End Lemmas.
Print Assumptions hole_points_outside.
Print Assumptions polygon_triangulated.
Print Assumptions triangulated_only_polygons.
Print Assumptions single_hole_points.
Print Assumptions single_as_multi.

(** ** Convex rings *)
(** the sides of a counterclockwise ring: how far a point is to the left of each *)
Definition left_of (a b x : rpt) : R := (fst b - fst a) * (snd x - snd a) - (snd b - snd a) * (fst x - fst a).
Fixpoint sides (r : list rpt) : list (rpt -> R) :=
  match r with
  | a :: ((b :: _) as r') => left_of a b :: sides r'
  | _ => []
  end.
Definition convex_disc (r : list rpt) : disc :=
  mkDisc (fun x => Forall (fun f => 0 < f x) (sides r)) (fun x => Forall (fun f => 0 <= f x) (sides r) /\ Exists (fun f => f x = 0) (sides r)).

Lemma cont_ext f g : (forall t, f t = g t) -> continuity g -> continuity f.
Proof. intros H C t eps He. destruct (C t eps He) as (al & Ha & G). exists al. split; auto. intros x Hx. rewrite !H. now apply G. Qed.
Lemma cont_const k : continuity (fun _ => k).
Proof. apply continuity_const. intros x y. reflexivity. Qed.
Lemma cont_abs f : continuity f -> continuity (fun t => Rabs (f t)).
Proof. intro C. apply (continuity_comp f Rabs); [exact C|exact Rcontinuity_abs]. Qed.
Lemma cont_min f g : continuity f -> continuity g -> continuity (fun t => Rmin (f t) (g t)).
Proof.
  intros F G. apply (cont_ext _ (fun t => (f t + g t - Rabs (f t - g t)) * / 2)).
  - intro t. unfold Rmin, Rabs. destruct (Rle_dec _ _), (Rcase_abs _); lra.
  - apply (continuity_mult (fun t => f t + g t - Rabs (f t - g t)) (fun _ => / 2)); [|apply cont_const].
    apply (continuity_minus (fun t => f t + g t)); [now apply continuity_plus|]. apply cont_abs. now apply (continuity_minus f g).
Qed.
Lemma cont_left a b c : curve c -> continuity (fun t => left_of a b (c t)).
Proof.
  intros [F G]. unfold left_of. apply (continuity_minus (fun t => (fst b - fst a) * (snd (c t) - snd a))).
  - apply (continuity_mult (fun _ => fst b - fst a)); [apply cont_const|]. apply (continuity_minus (fun t => snd (c t))); [auto|apply cont_const].
  - apply (continuity_mult (fun _ => snd b - snd a)); [apply cont_const|]. apply (continuity_minus (fun t => fst (c t))); [auto|apply cont_const].
Qed.
Definition least (l : list (rpt -> R)) (x : rpt) : R := fold_right (fun f a => Rmin (f x) a) 1 l.
Lemma cont_least r c : curve c -> continuity (fun t => least (sides r) (c t)).
Proof.
  intro C. induction r as [|a [|b r] IH]; [exact (cont_const 1)|exact (cont_const 1)|].
  apply (cont_min (fun t => left_of a b (c t)) (fun t => least (sides (b :: r)) (c t))); [now apply cont_left|exact IH].
Qed.
Lemma min_pos a b : 0 < Rmin a b <-> 0 < a /\ 0 < b.
Proof. unfold Rmin. destruct (Rle_dec a b); lra. Qed.
Lemma min_nonneg a b : 0 <= Rmin a b -> 0 <= a /\ 0 <= b.
Proof. unfold Rmin. destruct (Rle_dec a b); lra. Qed.
Lemma min_zero a b : Rmin a b = 0 -> a = 0 \/ b = 0.
Proof. unfold Rmin. destruct (Rle_dec a b); auto. Qed.
Lemma least_pos l x : 0 < least l x <-> Forall (fun f => 0 < f x) l.
Proof.
  unfold least. induction l as [|f l IH]; cbn [fold_right]; [split; auto; lra|]. rewrite Forall_cons_iff, <- IH. apply min_pos.
Qed.
Lemma least_nonneg l x : 0 <= least l x -> Forall (fun f => 0 <= f x) l.
Proof.
  unfold least. induction l as [|f l IH]; cbn [fold_right]; auto. intro H. apply min_nonneg in H as [H1 H2]. constructor; auto.
Qed.
Lemma least_zero l x : least l x = 0 -> Exists (fun f => f x = 0) l.
Proof.
  unfold least. induction l as [|f l IH]; cbn [fold_right]; [lra|]. intro H. apply min_zero in H as [H|H]; [left; auto|right; auto].
Qed.
Lemma convex_disc_ok r M : (forall x, ins (convex_disc r) x -> Rmax (Rabs (fst x)) (Rabs (snd x)) <= M) -> disc_ok (convex_disc r).
Proof.
  intro B. split; [|split; [exists M; exact B|]].
  - intros c C I O. cbn [ins edge convex_disc] in *. apply least_pos in I.
    assert (O' : least (sides r) (c 1) <= 0) by (apply Rnot_lt_le; intro H; apply O, least_pos, H).
    destruct (IVT_cor (fun t => least (sides r) (c t)) 0 1 (cont_least r c C) ltac:(lra)) as (t & Ht & Z); [nra|].
    exists t. split; auto. cbn beta in Z. split; [apply least_nonneg; lra|now apply least_zero].
  - intros x I [_ E]. cbn [ins convex_disc] in I. apply Exists_exists in E as (f & If & Ef). rewrite Forall_forall in I. specialize (I f If). lra.
Qed.

(** rectangles *)
Definition box_ring (x0 y0 x1 y1 : R) : list rpt := [(x0, y0); (x1, y0); (x1, y1); (x0, y1); (x0, y0)].
Ltac sides_cbn := cbn [ins edge convex_disc sides box_ring left_of fst snd] in *; unfold left_of in *; cbn [fst snd] in *.
Lemma box_ins x0 y0 x1 y1 x : x0 < x1 -> y0 < y1 -> (ins (convex_disc (box_ring x0 y0 x1 y1)) x <-> x0 < fst x < x1 /\ y0 < snd x < y1).
Proof.
  intros A B. unfold box_ring. sides_cbn. rewrite !Forall_cons_iff. split.
  - intros (H1 & H2 & H3 & H4 & _). repeat split; nra.
  - intros [[H1 H2] [H3 H4]]. repeat split; auto; nra.
Qed.
Lemma box_edge x0 y0 x1 y1 x : x0 < x1 -> y0 < y1 -> (edge (convex_disc (box_ring x0 y0 x1 y1)) x <->
  (x0 <= fst x <= x1 /\ y0 <= snd x <= y1) /\ (fst x = x0 \/ fst x = x1 \/ snd x = y0 \/ snd x = y1)).
Proof.
  intros A B. unfold box_ring. sides_cbn. rewrite !Forall_cons_iff, !Exists_cons. split.
  - intros [(H1 & H2 & H3 & H4 & _) H]. split; [repeat split; nra|]. destruct H as [H|[H|[H|[H|H]]]]; [| | | |inversion H].
    + right; right; left. nra.
    + right; left. nra.
    + right; right; right. nra.
    + left. nra.
  - intros [[[H1 H2] [H3 H4]] H]. split; [repeat split; auto; nra|]. destruct H as [H|[H|[H|H]]].
    + do 3 right; left. rewrite H. ring.
    + right; left. rewrite H. ring.
    + left. rewrite H. ring.
    + do 2 right; left. rewrite H. ring.
Qed.
Lemma abs_max x a : - a <= fst x <= a -> - a <= snd x <= a -> Rmax (Rabs (fst x)) (Rabs (snd x)) <= a.
Proof. intros X Y. apply Rmax_lub; apply Rabs_le; lra. Qed.
Lemma box_disc_ok x0 y0 x1 y1 : x0 < x1 -> y0 < y1 -> disc_ok (convex_disc (box_ring x0 y0 x1 y1)).
Proof.
  intros A B. apply (convex_disc_ok _ (Rabs x0 + Rabs x1 + Rabs y0 + Rabs y1)). intros x I. apply box_ins in I as [X Y]; auto.
  apply abs_max; split; unfold Rabs; repeat destruct (Rcase_abs _); lra.
Qed.
Lemma box_inside x0 y0 x1 y1 a0 b0 a1 b1 : a0 < a1 -> b0 < b1 -> x0 <= a0 -> y0 <= b0 -> a1 <= x1 -> b1 <= y1 ->
  inside (within convex_disc (box_ring a0 b0 a1 b1)) (within convex_disc (box_ring x0 y0 x1 y1)).
Proof. intros. intros x I. apply box_ins in I; auto. apply box_ins; lra. Qed.

(** straight lines *)
Lemma line_curve a b : curve (fun t => (fst a + t * (fst b - fst a), snd a + t * (snd b - snd a))).
Proof. split; apply line_continuous. Qed.
Lemma line_reach {V} (sh : list V -> disc) rings a b : (forall t, 0 <= t <= 1 -> ~ on_rings sh rings (fst a + t * (fst b - fst a), snd a + t * (snd b - snd a))) ->
  reach sh rings a b.
Proof.
  intro H. exists (fun t => (fst a + t * (fst b - fst a), snd a + t * (snd b - snd a))). split; [apply line_curve|]. split; [|split; [|exact H]].
  - destruct a as [ax ay]. cbn [fst snd]. f_equal; ring.
  - destruct a as [ax ay], b as [bx by']. cbn [fst snd]. f_equal; ring.
Qed.

Lemma between_open l u a b t : l < a < u -> l < b < u -> 0 <= t <= 1 -> l < a + t * (b - a) < u.
Proof. intros A B T. replace (a + t * (b - a)) with ((1 - t) * a + t * b) by ring. split; destruct (Req_dec t 0) as [->|]; nra. Qed.

(** ** Example: a square with a square hole is triangulated exactly *)
Definition frame : poly rpt := {| exterior := box_ring 0 0 4 4; holes := [box_ring 1 1 3 3] |}.
Lemma frame_region x : region convex_disc frame x <-> (0 < fst x < 4 /\ 0 < snd x < 4) /\ ~ (1 <= fst x <= 3 /\ 1 <= snd x <= 3).
Proof.
  unfold region, within, frame. cbn [exterior holes In]. rewrite box_ins, box_edge by lra. split.
  - intros (A & B & C). split; auto. intro H. destruct (C (box_ring 1 1 3 3) (or_introl eq_refl)) as [C1 C2]. rewrite box_ins in C1 by lra. rewrite box_edge in C2 by lra. lra.
  - intros (A & B). split; auto. split; [lra|]. intros h [<-|[]]. rewrite box_ins, box_edge by lra. lra.
Qed.
Lemma frame_valid : valid convex_disc [frame].
Proof.
  split; [|split].
  - intros r [<-|[<-|[]]]; apply box_disc_ok; lra.
  - intros p [<-|[]]. split; [|split].
    + intros h [<-|[]]. apply box_inside; lra.
    + intros [|[|i]] [|[|j]] h k; cbn; try discriminate; lia.
    + exists (1/2, 1/2). apply frame_region. cbn. lra.
  - intros [|[|i]] [|[|j]] p q; cbn; try discriminate; lia.
Qed.
Example frame_exact cov pos x : covers_ok convex_disc (mpoly_rings [frame]) cov -> surface_ok pos ->
  ~ on_rings convex_disc (mpoly_rings [frame]) x ->
  (triangulated convex_disc (mpoly_rings [frame]) (hole_seeds (interior_points convex_disc cov pos [frame])) x <-> region convex_disc frame x).
Proof.
  intros C S N.
  assert (On : forall y, on_rings convex_disc (mpoly_rings [frame]) y <-> edge (convex_disc (box_ring 0 0 4 4)) y \/ edge (convex_disc (box_ring 1 1 3 3)) y).
  { intro y. unfold on_rings. split; [intros (r & [<-|[<-|[]]] & E); auto|]. intros [E|E]; eexists; (split; [|exact E]); [now left|right; now left]. }
  split.
  - intro T. destruct (triangulated_only_polygons convex_disc cov pos [frame] x frame_valid C S) as (p & [<-|[]] & R); auto.
    + intros h a b [<-|[]] Ha Hb. apply interior_poly_iff in Ha as [Ha _]. apply interior_poly_iff in Hb as [Hb _].
      unfold within in *. rewrite box_ins in Ha by lra. rewrite box_ins in Hb by lra.
      apply line_reach. intros t Ht. rewrite On, !box_edge by lra. cbn [fst snd].
      pose proof (between_open 1 3 (fst a) (fst b) t). pose proof (between_open 1 3 (snd a) (snd b) t). lra.
    + intros a Na Oa M. specialize (Oa frame (or_introl eq_refl)). unfold within, frame in Oa. cbn [exterior] in Oa. rewrite box_ins in Oa by lra. rewrite On, !box_edge in Na by lra.
      set (k := 1 + Rabs M). assert (K : 1 <= k) by (unfold k; pose proof (Rabs_pos M); lra). assert (KM : M < k) by (unfold k; pose proof (Rle_abs M); lra).
      exists (fst a + k * (fst a - 2), snd a + k * (snd a - 2)). split.
      * apply line_reach. intros t Ht. rewrite On, !box_edge by lra. cbn [fst snd].
        assert (T1 : 0 <= t * k) by nra. replace (fst a + t * (fst a + k * (fst a - 2) - fst a)) with (fst a + t * k * (fst a - 2)) by ring.
        replace (snd a + t * (snd a + k * (snd a - 2) - snd a)) with (snd a + t * k * (snd a - 2)) by ring.
        assert (O4 : fst a < 0 \/ 4 < fst a \/ snd a < 0 \/ 4 < snd a) by lra. set (u := t * k) in *. clearbody u. clear - O4 T1. destruct O4 as [O|[O|[O|O]]]; nra.
      * cbn [fst snd]. assert (O4 : fst a < 0 \/ 4 < fst a \/ snd a < 0 \/ 4 < snd a) by lra.
        eapply Rlt_le_trans; [exact KM|]. clear - K O4.
        destruct O4 as [O|[O|[O|O]]].
        -- eapply Rle_trans; [|apply Rmax_l]. unfold Rabs. destruct (Rcase_abs _); nra.
        -- eapply Rle_trans; [|apply Rmax_l]. unfold Rabs. destruct (Rcase_abs _); nra.
        -- eapply Rle_trans; [|apply Rmax_r]. unfold Rabs. destruct (Rcase_abs _); nra.
        -- eapply Rle_trans; [|apply Rmax_r]. unfold Rabs. destruct (Rcase_abs _); nra.
  - intro R. apply (polygon_triangulated convex_disc cov pos [frame] frame x frame_valid C S); auto; [|now left].
    intros q [<-|[]] Q. apply frame_region in Q. cbn in Q. lra.
Qed.

(** ** Refuted: the triangulation covers the polygons and nothing else *)
(** The fixed hole point of line 96 is far away from everything only if the polygons are. *)
Definition far_square : poly rpt := {| exterior := box_ring (-101) (-101) (-99) (-99); holes := [] |}.
Theorem mpolygon_cut_refuted : exists polys p x, valid convex_disc polys /\ In p polys /\ region convex_disc p x /\
  ~ on_rings convex_disc (mpoly_rings polys) x /\
  forall cov pos, ~ triangulated convex_disc (mpoly_rings polys) (hole_seeds (interior_points convex_disc cov pos polys)) x.
Proof.
  exists [far_square], far_square, (- (201 / 2), -100).
  assert (On : forall y, on_rings convex_disc (mpoly_rings [far_square]) y <-> edge (convex_disc (box_ring (-101) (-101) (-99) (-99))) y).
  { intro y. unfold on_rings. split; [intros (r & [<-|[]] & E); auto|]. intros E; eexists; (split; [|exact E]); now left. }
  assert (Rg : forall y, region convex_disc far_square y <-> (-101 < fst y < -99 /\ -101 < snd y < -99)).
  { intro y. unfold region, within, far_square. cbn [exterior holes In]. rewrite box_ins, box_edge by lra. split; [tauto|]. intro H. split; auto. split; [lra|]. intros h []. }
  split; [|split; [now left|split; [apply Rg; cbn; lra|split]]].
  - split; [|split].
    + intros r [<-|[]]. apply box_disc_ok; lra.
    + intros p [<-|[]]. split; [intros h []|]. split; [intros [|i] j h k; discriminate|]. exists (-100, -100). apply Rg. cbn. lra.
    + intros [|[|i]] [|[|j]] p q; cbn; try discriminate; lia.
  - rewrite On, box_edge by lra. cbn [fst snd]. lra.
  - intros cov pos (_ & _ & H). apply (H (-100, -100)); [now left|]. apply line_reach. intros t Ht. rewrite On, box_edge by lra. cbn [fst snd]. lra.
Qed.
Print Assumptions mpolygon_cut_refuted.

(** A hole gets one point, also if a polygon that touches its ring divides what remains of it. *)
Definition diamond : list rpt := [(2, 0); (3, 2); (2, 4); (1, 2); (2, 0)].
Definition split_polys : list (poly rpt) :=
  [{| exterior := box_ring (-1) (-1) 5 5; holes := [box_ring 0 0 4 4] |}; {| exterior := diamond; holes := [] |}].
Lemma diamond_ins x : ins (convex_disc diamond) x <->
  0 < snd x - 2 * fst x + 4 /\ 0 < 8 - 2 * fst x - snd x /\ 0 < 2 * fst x - snd x /\ 0 < 2 * fst x + snd x - 4.
Proof. unfold diamond. sides_cbn. rewrite !Forall_cons_iff. split; [intros (H1 & H2 & H3 & H4 & _)|intros (H1 & H2 & H3 & H4)]; repeat split; auto; lra. Qed.
Lemma diamond_edge x : edge (convex_disc diamond) x <->
  (0 <= snd x - 2 * fst x + 4 /\ 0 <= 8 - 2 * fst x - snd x /\ 0 <= 2 * fst x - snd x /\ 0 <= 2 * fst x + snd x - 4) /\
  (snd x - 2 * fst x + 4 = 0 \/ 8 - 2 * fst x - snd x = 0 \/ 2 * fst x - snd x = 0 \/ 2 * fst x + snd x - 4 = 0).
Proof.
  unfold diamond. sides_cbn. rewrite !Forall_cons_iff, !Exists_cons. split.
  - intros [(H1 & H2 & H3 & H4 & _) H]. split; [repeat split; lra|]. destruct H as [H|[H|[H|[H|H]]]]; [lra|lra|lra|lra|inversion H].
  - intros [(H1 & H2 & H3 & H4) H]. split; [repeat split; auto; lra|]. destruct H as [H|[H|[H|H]]]; [left; lra|right; left; lra|do 2 right; left; lra|do 3 right; left; lra].
Qed.
Lemma split_valid : valid convex_disc split_polys.
Proof.
  assert (In1 : inside (within convex_disc diamond) (within convex_disc (box_ring 0 0 4 4))).
  { intros x I. unfold within in *. apply diamond_ins in I. apply box_ins; lra. }
  split; [|split].
  - intros r [<-|[<-|[<-|[]]]]; [apply box_disc_ok; lra| |apply box_disc_ok; lra].
    apply (convex_disc_ok _ 10). intros x I. apply diamond_ins in I. apply abs_max; lra.
  - intros p [<-|[<-|[]]]; (split; [|split]); cbn [holes exterior].
    + intros h [<-|[]]. apply box_inside; lra.
    + intros [|[|i]] [|[|j]] h k; cbn; try discriminate; lia.
    + exists (9/2, 2). unfold region, within. cbn [holes exterior In]. rewrite box_ins, box_edge by lra. cbn [fst snd].
      split; [lra|]. split; [lra|]. intros h [<-|[]]. rewrite box_ins, box_edge by lra. cbn [fst snd]. lra.
    + intros h [].
    + intros [|i] j h k; discriminate.
    + exists (2, 2). unfold region, within. cbn [holes exterior In]. rewrite diamond_ins, diamond_edge. cbn [fst snd]. split; [lra|]. split; [lra|]. intros h [].
  - intros [|[|[|i]]] [|[|[|j]]] p q; cbn [split_polys nth_error]; try discriminate; intros Ep Eq N; try lia; injection Ep as <-; injection Eq as <-.
    + right; left. eexists. split; [now left|exact In1].
    + right; right. eexists. split; [now left|exact In1].
Qed.
Lemma reach_part rings a b c t : curve c -> c 0 = a -> c 1 = b -> (forall u, 0 <= u <= 1 -> ~ on_rings convex_disc rings (c u)) -> 0 <= t <= 1 ->
  reach convex_disc rings a (c t).
Proof.
  intros [F G] A B N Ht. exists (fun u => c (u * t)).
  assert (L : continuity (fun u => u * t)) by (apply (continuity_mult (fun u => u) (fun _ => t)); [apply derivable_continuous, derivable_id|apply cont_const]).
  split; [split; [apply (continuity_comp (fun u => u * t) (fun u => fst (c u)))|apply (continuity_comp (fun u => u * t) (fun u => snd (c u)))]; auto|].
  split; [now rewrite Rmult_0_l|]. split; [now rewrite Rmult_1_l|]. intros u Hu. apply N. nra.
Qed.
(** the two sides of the diamond are not connected *)
Lemma split_sides a b : within convex_disc (box_ring 0 0 4 4) a -> ~ within convex_disc diamond a -> fst a < 2 < fst b -> ~ reach convex_disc (mpoly_rings split_polys) a b.
Proof.
  intros Ha Na Hx (c & C & A & B & N).
  destruct (IVT_cor (fun t => fst (c t) - 2) 0 1) as (t & Ht & Z).
  - apply (continuity_minus (fun t => fst (c t))); [apply C|apply cont_const].
  - lra.
  - rewrite A, B. nra.
  - pose proof (reach_part _ a b c t C A B N Ht) as R. pose proof split_valid as (D & _).
    assert (Ih : In (box_ring 0 0 4 4) (mpoly_rings split_polys)) by (right; right; now left).
    assert (Id : In diamond (mpoly_rings split_polys)) by (right; now left).
    pose proof (reach_stays _ _ _ _ _ Ih (D _ Ih) R Ha) as W. unfold within in W. rewrite box_ins in W by lra.
    apply Na. apply (reach_same _ _ _ _ _ Id (D _ Id) R). apply diamond_ins. cbn beta in Z. lra.
Qed.
Theorem mpolygon_outside_refuted : exists polys, valid convex_disc polys /\
  forall cov pos, covers_ok convex_disc (mpoly_rings polys) cov -> surface_ok pos ->
  exists x, triangulated convex_disc (mpoly_rings polys) (hole_seeds (interior_points convex_disc cov pos polys)) x /\
    forall p, In p polys -> ~ region convex_disc p x.
Proof.
  exists split_polys. split; [exact split_valid|]. intros cov pos C S. pose proof split_valid as (D & _).
  assert (Ie : In (box_ring (-1) (-1) 5 5) (mpoly_rings split_polys)) by now left.
  assert (Ih : In (box_ring 0 0 4 4) (mpoly_rings split_polys)) by (right; right; now left).
  assert (Id : In diamond (mpoly_rings split_polys)) by (right; now left).
  assert (On : forall y, on_rings convex_disc (mpoly_rings split_polys) y ->
    edge (convex_disc (box_ring (-1) (-1) 5 5)) y \/ edge (convex_disc diamond) y \/ edge (convex_disc (box_ring 0 0 4 4)) y).
  { intros y (r & [<-|[<-|[<-|[]]]] & E); auto. }
  assert (Goal_ : forall x, (x = (7/2, 2) \/ x = (1/2, 2)) -> (forall s, In s (interior_points convex_disc cov pos split_polys) -> ~ reach convex_disc (mpoly_rings split_polys) s x) ->
    exists x, triangulated convex_disc (mpoly_rings split_polys) (hole_seeds (interior_points convex_disc cov pos split_polys)) x /\
    forall p, In p split_polys -> ~ region convex_disc p x).
  { intros x Ex Ns. assert (X : (fst x = 7/2 \/ fst x = 1/2) /\ snd x = 2) by (destruct Ex as [-> | ->]; cbn; lra).
    exists x. split; [split; [|split]|].
    - intro E. apply On in E. rewrite !box_edge, diamond_edge in E by lra. lra.
    - apply (not_far _ _ _ _ Ie (D _ Ie)). apply box_ins; lra.
    - intros s [<-|Is]; [|now apply Ns]. intro R. apply (reach_same _ _ _ _ _ Ie (D _ Ie)) in R. unfold within in R.
      rewrite !box_ins in R by lra. cbn [fst snd] in R. lra.
    - intros p [<-|[<-|[]]] (R1 & _ & R2); cbn [exterior holes] in *.
      + destruct (R2 _ (or_introl eq_refl)) as [R3 _]. apply R3. apply box_ins; lra.
      + apply diamond_ins in R1. lra. }
  assert (E : interior_points convex_disc cov pos split_polys = coordinates [pos (interior_poly convex_disc cov (map exterior split_polys) (box_ring 0 0 4 4))]) by reflexivity.
  specialize (S (interior_poly convex_disc cov (map exterior split_polys) (box_ring 0 0 4 4))).
  destruct (pos _) as [s|] in S, E.
  - apply interior_poly_iff in S as [Sh Sd].
    assert (Nd : ~ within convex_disc diamond s).
    { intro W. apply (Sd diamond); [right; now left| |now left]. apply C; auto. intros y I. unfold within in *. apply diamond_ins in I. apply box_ins; lra. }
    assert (N2 : fst s <> 2). { intro E2. unfold within in *. apply Nd, diamond_ins. rewrite box_ins in Sh by lra. lra. }
    destruct (Rlt_le_dec (fst s) 2) as [L|L].
    + apply (Goal_ (7/2, 2)); auto. rewrite E. intros s' [<-|[]]. apply split_sides; auto. cbn [fst]. lra.
    + apply (Goal_ (1/2, 2)); auto. rewrite E. intros s' [<-|[]] R. apply reach_sym in R. revert R. apply split_sides.
      * apply box_ins; cbn; lra.
      * unfold within. rewrite diamond_ins. cbn. lra.
      * cbn [fst]. lra.
  - apply (Goal_ (7/2, 2)); auto. rewrite E. intros s' [].
Qed.
Print Assumptions mpolygon_outside_refuted.
