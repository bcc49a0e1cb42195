(** * Property C137: a sampled value has the distribution of its hyperparameter *)
From Coq Require Import String List ZArith QArith Qround Bool Lia Lqa Permutation Relations.
From Verif Require Import Base ListFacts Numeric HP HPProofs Properties_HP Cond Forb EqFacts Dag DagProofs
  Space CommitProofs Spec SpaceProofs CnodeProofs ForbProofs EvalProofs ForbEval MergeProofs ValidProofs ConfigProofs
  ChangeProofs PassProofs ReadProofs SampleProofs Ex Properties_Eval Properties_Config Properties_Change Properties_Sample
  Dist DistProofs Properties_Dist Properties_Size Properties_Array Properties_Reach Properties_Mass Properties_Add Properties_Exchange
  Properties_Chance Properties_Together Properties_Parts Properties_Assign.
Import ListNotations.
Open Scope nat_scope.

(** ** What is to be shown *)

(** [m] is [n] or depends on it through conditions *)
Definition below (cs : list cond) (n m : string) : Prop := clos_refl_trans _ (reads cs) n m.
(** the hyperparameter [n] has a value in a vector *)
Definition is_set (s : space) (n : string) (u : list fval) : bool := negb (isnan (vget (index_of s) u n)).
(** ... whose entry satisfies [p] *)
Definition has (s : space) (n : string) (p : fval -> bool) (u : list fval) : bool := (is_set s n u && p (vget (index_of s) u n))%bool.
(** a property of a vector that does not look at [n] and what depends on it *)
Definition elsewhere (s : space) (cs : list cond) (n : string) (r : list fval -> bool) : Prop :=
  forall u u', (forall m, In m (keys s) -> ~ below cs n m -> vget (index_of s) u m = vget (index_of s) u' m) -> r u = r u'.
(** no clause mentions [n] or what depends on it *)
Definition unforbidden (cs : list cond) (fs : list fclause) (n : string) : Prop :=
  forall f g, In f fs -> In g (forb_hps f) -> ~ below cs n (hp_name g).

(** ** One of several independent draws *)
Section Split.
  Context {A : Type} (d : A).
  Lemma independent_mk (l : list (A * Q)) ls x q v r : In (x, q) l -> In (v, r) (independent ls) -> In (x :: v, (q * r)%Q) (independent (l :: ls)).
  Proof.
    intros Hx Hv. cbn [independent]. apply in_concat. exists (map (fun vr => (x :: fst vr, (q * snd vr)%Q)) (independent ls)). split.
    - apply in_map_iff. exists (x, q). split; [reflexivity|exact Hx].
    - apply in_map_iff. exists (v, r). split; [reflexivity|exact Hv].
  Qed.
  Lemma chance_if (l : list (A * Q)) (p : A -> bool) (k : Q) : (esum l (fun x => if p x then k else 0) == chance l p * k)%Q.
  Proof. induction l as [|[x q] l IH]; cbn; [ring|]. unfold esum in IH. rewrite IH. unfold chance. destruct (p x); ring. Qed.

  Lemma chance_at (p : A -> bool) : forall ls i (G : list A -> bool), i < length ls -> (total (nth i ls []) == 1)%Q ->
    (forall v q v' q', In (v, q) (independent ls) -> In (v', q') (independent ls) -> (forall j, j <> i -> nth j v d = nth j v' d) -> G v = G v') ->
    (chance (independent ls) (fun v => p (nth i v d) && G v)%bool == chance (nth i ls []) p * chance (independent ls) G)%Q.
  Proof.
    induction ls as [|l ls IH]; intros i G Hi Tl St; [cbn in Hi; lia|]. destruct i as [|i].
    - cbn [nth] in *. destruct l as [|[x0 q0] l0] eqn:El.
      { exfalso. unfold total in Tl. cbn in Tl. lra. }
      rewrite <- El in *. assert (H0 : In (x0, q0) l) by (rewrite El; left; reflexivity). clear El.
      assert (St' : forall x q, In (x, q) l -> (chance (independent ls) (fun v => G (x :: v)) == chance (independent ls) (fun v => G (x0 :: v)))%Q).
      { intros x q Hx. apply chance_ext. intros v r Hv. apply (St _ _ _ _ (independent_mk _ _ _ _ _ _ Hx Hv) (independent_mk _ _ _ _ _ _ H0 Hv)).
        intros [|j] Hj; [congruence|reflexivity]. }
      rewrite !chance_cons. cbn [nth].
      rewrite (esum_ext l _ (fun x => if p x then chance (independent ls) (fun v => G (x0 :: v)) else 0)%Q).
      2: { intros x q Hx. destruct (p x); cbn [andb]; [apply (St' x q Hx)|apply chance_never]. }
      rewrite chance_if, (esum_ext l _ (fun x => if true then chance (independent ls) (fun v => G (x0 :: v)) else 0)%Q) by (intros x q Hx; apply (St' x q Hx)).
      rewrite (chance_if l (fun _ => true)). fold (total l). rewrite Tl. ring.
    - cbn [nth] in *. rewrite !chance_cons. rewrite (Qmult_comm (chance (nth i ls []) p)), <- esum_scale. apply esum_ext. intros x q Hx. cbn [nth].
      rewrite (IH i (fun v => G (x :: v))); [ring|cbn in Hi; lia|exact Tl|]. intros v r v' r' Hv Hv' Ag.
      apply (St _ _ _ _ (independent_mk _ _ _ _ _ _ Hx Hv) (independent_mk _ _ _ _ _ _ Hx Hv')). intros [|j] Hj; [reflexivity|]. cbn [nth]. apply Ag. congruence.
  Qed.
End Split.

Section Marginal.
  Context {E : Env} {L : EnvLaws E}.

  Section Space.
    Context {s : space} {hs : list hp} {cs : list cond} {fs : list fclause} (T : tame s hs cs fs) (Or : orderly cs).
    Notation io := (index_of s).
    Let B := tm_built _ _ _ _ T.
    Let O : space_ok s hs cs fs := built_ok _ _ _ _ B.
    Let R := tm_refs _ _ _ _ T.

    Lemma parent_above h p : reads cs p (hp_name h) -> ~ below cs (hp_name h) p.
    Proof.
      intros Rd K. apply (so_no_cycle O (hp_name h)). apply clos_rt_t with (y := p); [exact K|apply t_step; exact Rd].
    Qed.

    (** columns that differ only in the entry of [n]: only what depends on [n] is kept or dropped differently *)
    Lemma prune_beside n v v' : length v = s_len s -> length v' = s_len s -> (forall g, In g hs -> hp_name g <> n -> vget io v (hp_name g) = vget io v' (hp_name g)) ->
      forall g, In g hs -> ~ below cs n (hp_name g) -> vget io (prune (s := s) v) (hp_name g) = vget io (prune (s := s) v') (hp_name g).
    Proof.
      intros Lv Lv' Ag. apply (by_depth s hs cs fs (fun g => ~ below cs n (hp_name g) -> vget io (prune (s := s) v) (hp_name g) = vget io (prune (s := s) v') (hp_name g)) B).
      intros g Hg IH Nb. assert (Ng : hp_name g <> n) by (intros Eq; apply Nb; rewrite Eq; apply rt_refl).
      destruct (conditional_dec O (hp_name g)) as [(c & Hc & Ha)|Nc].
      - destruct (so_hp_index O g Hg) as (i & Hi & _). assert (Ki := proj1 (so_index O _ _) Hi).
        assert (P1 := prune_cond O v (hp_name g) c i Or (proj1 R) (tm_merge _ _ _ _ T) Lv Ki Hc Ha).
        assert (P2 := prune_cond O v' (hp_name g) c i Or (proj1 R) (tm_merge _ _ _ _ T) Lv' Ki Hc Ha).
        assert (Q := Ag g Hg Ng). unfold vget in Q |- *. rewrite Hi in Q |- *. rewrite P1, P2, Q.
        replace (sat_vec io (prune (s := s) v') c) with (sat_vec io (prune (s := s) v) c); [reflexivity|].
        apply sat_vec_two. intros p Hp. unfold cond_parents in Hp. apply in_map_iff in Hp. destruct Hp as (l & <- & Hl).
        destruct (proj1 R c Hc l Hl) as [_ Hp].
        assert (Rd : reads cs (hp_name (l_parent l)) (hp_name g)).
        { exists c. split; [exact Hc|]. split; [exact Ha|]. unfold cond_parents. apply in_map_iff. exists l. split; [reflexivity|exact Hl]. }
        apply (IH (l_parent l) Hp Rd). intros K. apply Nb. eapply rt_trans; [exact K|apply rt_step; exact Rd].
      - rewrite (prune_root O v _ Lv Nc), (prune_root O v' _ Lv' Nc). apply Ag; assumption.
    Qed.

    (** a hyperparameter keeps its entry or loses it, whatever the entry is *)
    Lemma prune_self h v v' : In h hs -> length v = s_len s -> length v' = s_len s ->
      (forall g, In g hs -> hp_name g <> hp_name h -> vget io v (hp_name g) = vget io v' (hp_name g)) ->
      exists b : bool, vget io (prune (s := s) v) (hp_name h) = (if b then vget io v (hp_name h) else NaN) /\
                vget io (prune (s := s) v') (hp_name h) = (if b then vget io v' (hp_name h) else NaN).
    Proof.
      intros Hh Lv Lv' Ag. destruct (conditional_dec O (hp_name h)) as [(c & Hc & Ha)|Nc].
      - destruct (so_hp_index O h Hh) as (i & Hi & _). assert (Ki := proj1 (so_index O _ _) Hi).
        assert (P1 := prune_cond O v (hp_name h) c i Or (proj1 R) (tm_merge _ _ _ _ T) Lv Ki Hc Ha).
        assert (P2 := prune_cond O v' (hp_name h) c i Or (proj1 R) (tm_merge _ _ _ _ T) Lv' Ki Hc Ha).
        exists (sat_vec io (prune (s := s) v) c). split; [unfold vget; rewrite Hi; exact P1|].
        unfold vget. rewrite Hi, P2. replace (sat_vec io (prune (s := s) v') c) with (sat_vec io (prune (s := s) v) c); [reflexivity|].
        apply sat_vec_two. intros p Hp. unfold cond_parents in Hp. apply in_map_iff in Hp. destruct Hp as (l & <- & Hl).
        destruct (proj1 R c Hc l Hl) as [_ Hp]. apply (prune_beside (hp_name h) v v' Lv Lv' Ag (l_parent l) Hp). apply parent_above.
        exists c. split; [exact Hc|]. split; [exact Ha|]. unfold cond_parents. apply in_map_iff. exists l. split; [reflexivity|exact Hl].
      - exists true. split; [apply (prune_root O v _ Lv Nc)|apply (prune_root O v' _ Lv' Nc)].
    Qed.

    Context (ls : list (list (fval * Q))) (F : fits s hs ls) (h : hp) (Hh : In h hs) (U : unforbidden cs fs (hp_name h))
      (r : list fval -> bool) (Er : elsewhere s cs (hp_name h) r).
    Notation n := (hp_name h).

    Lemma key_hp m : In m (keys s) -> exists g, In g hs /\ hp_name g = m.
    Proof. intros Hm. apply (Permutation_in _ (so_keys O)) in Hm. apply in_map_iff in Hm. destruct Hm as (g & <- & Hg). eauto. Qed.

    Lemma drawn_set v q i : In (v, q) (independent ls) -> assoc n io = Some i -> isnan (nth i v NaN) = false.
    Proof.
      intros Hv Hi. apply independent_in in Hv. destruct F as [Lf Ff]. destruct (Ff h i Hh Hi) as [_ En].
      assert (Li : i < length ls) by (destruct (so_hp_index O h Hh) as (j & Hj & Hlt & _); rewrite Lf; congruence).
      assert (Lv := Forall2_len_eq _ _ _ Hv).
      assert (Ex : exists q', In (nth i v NaN, q') (nth i ls [])).
      { clear - Hv Li. revert i Li. induction Hv as [|x l v ls Hx _ IH]; intros i Li; [cbn in Li; lia|]. destruct i as [|i]; [exact Hx|]. apply IH. cbn in Li. lia. }
      destruct Ex as (q' & Hq). destruct (En _ _ Hq) as (w & Hw). destruct Hw as (Hl & Ew & x & Hx & Fx).
      assert (Lx := exact_legal_vector h w x (so_constructed O h Hh) Hl Ew Hx). apply legal_vector_finite in Lx. destruct (nth i v NaN), x; simpl in *; try reflexivity; try contradiction; discriminate.
    Qed.

    (** the column is kept *)
    Lemma column_prune q v t : In (v, t) (independent ls) -> column_gives s q v = (accepted s v && q (prune (s := s) v))%bool.
    Proof.
      intros Hv. destruct (law_drawn T ls F v t Hv) as [Lv Dv]. unfold column_gives, accepted. rewrite (single_keep T v Lv Dv).
      destruct (keep_or (s := s) v) as [K|K]; rewrite K; reflexivity.
    Qed.

    Lemma marginal p i : assoc n io = Some i ->
      (chance (independent ls) (column_gives s (fun u => has s n p u && r u)%bool)
       == chance (nth i ls []) p * chance (independent ls) (column_gives s (fun u => is_set s n u && r u)%bool))%Q.
    Proof.
      intros Hi. assert (Li : i < length ls) by (destruct (so_hp_index O h Hh) as (j & Hj & Hlt & _); rewrite (proj1 F); congruence).
      assert (Tl : (total (nth i ls []) == 1)%Q) by apply (proj1 (proj2 F h i Hh Hi)).
      assert (Vi : forall u, vget io u n = nth i u NaN) by (intros u; unfold vget; rewrite Hi; reflexivity).
      assert (Beside : forall v v', (forall j, j <> i -> nth j v NaN = nth j v' NaN) -> forall g, In g hs -> hp_name g <> n -> vget io v (hp_name g) = vget io v' (hp_name g)).
      { intros v v' Ag g Hg Ng. destruct (so_hp_index O g Hg) as (j & Hj & _). unfold vget. rewrite Hj. apply Ag. intros ->. apply Ng.
        assert (K1 := proj1 (so_index O _ _) Hi). assert (K2 := proj1 (so_index O _ _) Hj). congruence. }
      rewrite <- (chance_at NaN p ls i (column_gives s (fun u => is_set s n u && r u)%bool) Li Tl).
      - apply chance_ext. intros v t Hv. rewrite !(column_prune _ v t Hv). destruct (law_drawn T ls F v t Hv) as [Lv _].
        destruct (prune_self h v v Hh Lv Lv (fun _ _ _ => eq_refl)) as (b & Hb & _). unfold has, is_set. rewrite Hb, Vi. destruct b.
        + rewrite (drawn_set v t i Hv Hi). cbn [negb andb]. destruct (accepted s v), (p (nth i v NaN)), (r (prune v)); reflexivity.
        + cbn [isnan negb andb]. rewrite !andb_false_r. reflexivity.
      - intros v t v' t' Hv Hv' Ag. rewrite (column_prune _ v t Hv), (column_prune _ v' t' Hv').
        destruct (law_drawn T ls F v t Hv) as [Lv Dv]. destruct (law_drawn T ls F v' t' Hv') as [Lv' Dv']. assert (Bs := Beside v v' Ag).
        assert (Pb := prune_beside n v v' Lv Lv' Bs).
        assert (Ac : accepted s v = accepted s v').
        { apply eq_true_iff_eq. rewrite (accepted_okf s hs cs fs v T Lv Dv), (accepted_okf s hs cs fs v' T Lv' Dv').
          assert (Fe : forall f, In f fs -> forb_vec io (prune (s := s) v) f = forb_vec io (prune (s := s) v') f).
          { intros f Hf. apply forb_vec_two. intros m Hm. apply names_hps in Hm. destruct Hm as (g & Hg & <-). apply Pb; [apply (proj2 R f Hf g Hg)|apply (U f g Hf Hg)]. }
          split; intros K f Hf; [rewrite <- (Fe f Hf)|rewrite (Fe f Hf)]; apply K, Hf. }
        assert (Re : r (prune (s := s) v) = r (prune (s := s) v')).
        { apply Er. intros m Hm Nb. destruct (key_hp m Hm) as (g & Hg & <-). apply Pb; assumption. }
        rewrite Ac, Re. destruct (prune_self h v v' Hh Lv Lv' Bs) as (b & Hb & Hb'). unfold is_set. rewrite Hb, Hb', !Vi.
        destruct b; [rewrite (drawn_set v t i Hv Hi), (drawn_set v' t' i Hv' Hi)|]; reflexivity.
    Qed.
  End Space.

  (** ** C137 *)

  (** One column: given that the hyperparameter is active and whatever holds elsewhere, its value has the law it was drawn by *)
  Theorem C137_column_partial s hs cs fs ls h i p r : tame s hs cs fs -> orderly cs -> fits s hs ls -> In h hs ->
    assoc (hp_name h) (index_of s) = Some i -> unforbidden cs fs (hp_name h) -> elsewhere s cs (hp_name h) r ->
    (chance (independent ls) (column_gives s (fun u => has s (hp_name h) p u && r u)%bool)
     == chance (nth i ls []) p * chance (independent ls) (column_gives s (fun u => is_set s (hp_name h) u && r u)%bool))%Q.
  Proof. intros T Or F Hh Hi U Er. apply (marginal T Or ls F h Hh U r Er p i Hi). Qed.

  (** Sampling several configurations at once: the same of each of them, whatever holds of the others *)
  Theorem C137_sample_partial s hs cs fs ls h i p r fuel before after : tame s hs cs fs -> orderly cs -> fits s hs ls -> In h hs ->
    assoc (hp_name h) (index_of s) = Some i -> unforbidden cs fs (hp_name h) -> elsewhere s cs (hp_name h) r ->
    let m := next_size s (length before + S (length after)) in
    let those q := chance (blocks_law ls m fuel) (together s fuel (before ++ q :: after)) in
    (those (fun u => has s (hp_name h) p u && r u)%bool == chance (nth i ls []) p * those (fun u => is_set s (hp_name h) u && r u)%bool)%Q.
  Proof.
    intros T Or F Hh Hi U Er m those. assert (Ne : hs <> []) by (intros ->; destruct Hh). subst those. cbv beta. subst m.
    assert (Ln : forall q, length before + S (length after) = length (before ++ q :: after)) by (intros q; rewrite app_length; reflexivity).
    rewrite (Ln (fun u => has s (hp_name h) p u && r u)%bool) at 1. rewrite (together_chance T ls F fuel _ Ne).
    rewrite (Ln (fun u => is_set s (hp_name h) u && r u)%bool) at 1. rewrite (together_chance T ls F fuel _ Ne).
    rewrite <- !Ln. rewrite !map_app. cbn [map].
    assert (Pa : forall a x b, (qprod (a ++ x :: b) == x * qprod (a ++ b))%Q).
    { intros a x b. induction a as [|y a IH]; [reflexivity|]. cbn [app qprod fold_right]. fold (qprod (a ++ x :: b)). fold (qprod (a ++ b)). rewrite IH. ring. }
    rewrite !Pa. rewrite (C137_column_partial s hs cs fs ls h i p r T Or F Hh Hi U Er). ring.
  Qed.

  (** An unconditional hyperparameter always has a value: its value has the law whatever else is sampled *)
  Theorem C137_root_partial s hs cs fs ls h i p r : tame s hs cs fs -> orderly cs -> fits s hs ls -> In h hs ->
    assoc (hp_name h) (index_of s) = Some i -> unforbidden cs fs (hp_name h) -> elsewhere s cs (hp_name h) r -> ~ conditional cs (hp_name h) ->
    (chance (independent ls) (column_gives s (fun u => has s (hp_name h) p u && r u)%bool)
     == chance (nth i ls []) p * chance (independent ls) (column_gives s r))%Q.
  Proof.
    intros T Or F Hh Hi U Er Nc. assert (O := built_ok _ _ _ _ (tm_built _ _ _ _ T)). rewrite (C137_column_partial s hs cs fs ls h i p r T Or F Hh Hi U Er).
    apply Qmult_comp; [reflexivity|]. apply chance_ext. intros v t Hv. rewrite !(column_prune T ls F _ v t Hv).
    destruct (law_drawn T ls F v t Hv) as [Lv _]. unfold is_set. rewrite (prune_root O v _ Lv Nc). unfold vget. rewrite Hi.
    rewrite (drawn_set T ls F h Hh v t i Hv Hi). reflexivity.
  Qed.

  Lemma laws_nth s hs cs fs h i : space_ok s hs cs fs -> In h hs -> assoc (hp_name h) (index_of s) = Some i -> nth i (laws s) [] = sample_law h.
  Proof.
    intros O Hh Hi. assert (Hlt : i < length (Space.hps s)).
    { rewrite (Permutation_length (so_hps O)), <- (len_hs s hs cs fs O). apply (so_index_lt O _ _ Hi). }
    destruct (nth_error (Space.hps s) i) as [k|] eqn:Ek; [|apply nth_error_None in Ek; lia].
    destruct (hps_nth s hs cs fs i k O Ek) as [Hk Ik]. assert (Nm : hp_name k = hp_name h) by (apply (so_index O) in Hi, Ik; congruence).
    assert (k = h).
    { assert (G1 := proj2 (so_get_hp O (hp_name h) h) (conj Hh eq_refl)). assert (G2 := proj2 (so_get_hp O (hp_name h) k) (conj Hk Nm)). congruence. }
    subst k. apply nth_error_nth. unfold laws. rewrite nth_error_map, Ek. reflexivity.
  Qed.

  (** With the laws of the library: an active hyperparameter has a value with the density of the value *)
  Theorem C137_density_partial s hs cs fs h w x f r fuel before after : tame s hs cs fs -> orderly cs -> (forall g, In g hs -> evenly g) -> In h hs ->
    unforbidden cs fs (hp_name h) -> elsewhere s cs (hp_name h) r -> In w (options h) -> to_vector h w = Ok x ->
    let m := next_size s (length before + S (length after)) in
    let those q := chance (blocks_law (laws s) m fuel) (together s fuel (before ++ q :: after)) in
    (those (fun u => has s (hp_name h) (fun y => fsameb y x) u && r u)%bool
     == get_or 0 (pdf_value h f w) * those (fun u => is_set s (hp_name h) u && r u)%bool)%Q.
  Proof.
    intros T Or Ev Hh U Er Hw Hx m those. assert (O := built_ok _ _ _ _ (tm_built _ _ _ _ T)). assert (F := laws_fit s hs cs fs O Ev).
    destruct (so_hp_index O h Hh) as (i & Hi & _). subst those m. cbv zeta.
    rewrite (C137_sample_partial s hs cs fs (laws s) h i _ r fuel before after T Or F Hh Hi U Er). apply Qmult_comp; [|reflexivity].
    assert (Ch : constructed h) by apply (so_constructed O h Hh). destruct (C132_law h Ch (Ev h Hh)) as (_ & _ & D).
    destruct (D f w Hw) as (x' & q & Hx' & Hq & Hc). rewrite Hq. cbn [get_or]. assert (x' = x) by congruence. subst x'. rewrite <- Hc.
    replace (nth i (laws s) []) with (sample_law h); [reflexivity|]. symmetry. apply (laws_nth s hs cs fs h i O Hh Hi).
  Qed.
End Marginal.

(** ** Examples *)
Section Witness.
  Local Existing Instance rat_env.

  (** x and z are active when r is 1; x = 0 and y = 0 are forbidden together; z is free *)
  Definition mar_hps := [bin "r"; bin "x"; bin "y"; bin "z"].
  Definition mar_conds := [on "1" "x" "r"; on "1" "z" "r"].
  Definition mar_space := fst (add empty_space mar_hps mar_conds [few_and]).
  Lemma mar_built : built mar_space mar_hps mar_conds [few_and].
  Proof.
    apply (built_step empty_space [] [] [] mar_hps mar_conds [few_and] built_empty); [| | |vm_compute; reflexivity].
    - repeat (constructor; [apply bin_c|]). constructor.
    - constructor; [|constructor; [|constructor]].
      + apply (CB_bin OpEq (bin "x") (bin "r") (VStr "1") _ (bin_c _) (bin_c _)); vm_compute; reflexivity.
      + apply (CB_bin OpEq (bin "z") (bin "r") (VStr "1") _ (bin_c _) (bin_c _)); vm_compute; reflexivity.
    - constructor; [|constructor]. apply (FB_and [few_x; few_y] few_and); [|vm_compute; reflexivity]. intros g [<-|[<-|[]]].
      + apply (FB_eq (bin "x") (VStr "0") few_x (bin_c _)). vm_compute. reflexivity.
      + apply (FB_eq (bin "y") (VStr "0") few_y (bin_c _)). vm_compute. reflexivity.
  Qed.
  Lemma mar_tame : tame mar_space mar_hps mar_conds [few_and].
  Proof.
    constructor; [apply mar_built| | | |].
    - split.
      + intros c [<-|[<-|[]]] l Hl; vm_compute in Hl; (repeat (destruct Hl as [<-|Hl]; [split; vm_compute; tauto|]); tauto).
      + intros g [<-|[]] h Hh. vm_compute in Hh. repeat (destruct Hh as [<-|Hh]; [vm_compute; tauto|]); destruct Hh.
    - intros c d v [<-|[<-|[]]] [<-|[<-|[]]] H; reflexivity.
    - intros c l w vv [<-|[<-|[]]] Hl Ht; vm_compute in Hl; (repeat (destruct Hl as [<-|Hl]; [exfalso; clear -Ht; vm_compute in Ht; discriminate Ht|]); destruct Hl).
    - intros g [<-|[]] r a b Hr. exfalso. vm_compute in Hr. repeat (destruct Hr as [Hr|Hr]; [discriminate Hr|]). destruct Hr.
  Qed.
  Definition mar_lev (n : string) : nat := if (String.eqb n "x" || String.eqb n "z")%bool then 2 else 1.
  Lemma mar_reads p n : reads mar_conds p n -> p = "r"%string /\ (n = "x" \/ n = "z")%string.
  Proof. intros (c & [<-|[<-|[]]] & Ha & Hp); vm_compute in Ha; inversion Ha; subst; vm_compute in Hp; destruct Hp as [<-|[]]; auto. Qed.
  Lemma mar_orderly : orderly mar_conds.
  Proof.
    assert (LA := rat_env_laws). apply (C20_guard_levels mar_space mar_hps mar_conds [few_and] mar_lev mar_built).
    - intros c [<-|[<-|[]]]; exact I.
    - intros n. unfold mar_lev. destruct (_ || _)%bool; lia.
    - intros p n Rd. destruct (mar_reads p n Rd) as [-> [->| ->]]; reflexivity.
    - intros n H. unfold mar_lev in H. destruct (string_dec n "x") as [->|Hn].
      + exists "r"%string, (on "1" "x" "r"). split; [left; reflexivity|]. split; vm_compute; tauto.
      + destruct (string_dec n "z") as [->|Hz].
        * exists "r"%string, (on "1" "z" "r"). split; [right; left; reflexivity|]. split; vm_compute; tauto.
        * apply String.eqb_neq in Hn, Hz. rewrite Hn, Hz in H. cbn in H. lia.
  Qed.
  Lemma mar_below m : below mar_conds "z" m -> m = "z"%string.
  Proof.
    intros H. apply clos_rt_rt1n in H. destruct H as [|p m Rd _]; [reflexivity|]. exfalso. destruct (mar_reads _ _ Rd) as [K _]. discriminate K.
  Qed.

  Definition one := fun y : fval => fsameb y (Fin 1).
  Definition zero := fun y : fval => fsameb y (Fin 0).

  (** half of the columns in which z is active and x is 0 have z = 1 *)
  Example C137_ex : tame mar_space mar_hps mar_conds [few_and] /\ orderly mar_conds /\ fits mar_space mar_hps (laws mar_space) /\
    In (bin "z") mar_hps /\ unforbidden mar_conds [few_and] "z" /\ elsewhere mar_space mar_conds "z" (has mar_space "x" zero) /\
    (chance (nth 3 (laws mar_space) []) one == 1#2)%Q /\
    (chance (independent (laws mar_space)) (column_gives mar_space (fun u => is_set mar_space "z" u && has mar_space "x" zero u)%bool) == 1#8)%Q /\
    (chance (independent (laws mar_space)) (column_gives mar_space (fun u => has mar_space "z" one u && has mar_space "x" zero u)%bool) == 1#16)%Q /\
    (chance (independent (laws mar_space)) (accepted mar_space) == 7#8)%Q.
  Proof.
    assert (LA := rat_env_laws). assert (O := built_ok _ _ _ _ mar_built).
    split; [exact mar_tame|]. split; [exact mar_orderly|].
    split; [apply (laws_fit _ _ _ _ O); intros h Hh; repeat (destruct Hh as [<-|Hh]; [exact I|]); destruct Hh|].
    split; [right; right; right; left; reflexivity|].
    split. { intros f g [<-|[]] Hg K. apply mar_below in K. vm_compute in Hg. repeat (destruct Hg as [<-|Hg]; [discriminate K|]). destruct Hg. }
    split. { intros u u' H. assert (Q : vget (index_of mar_space) u "x" = vget (index_of mar_space) u' "x").
      { apply H; [vm_compute; tauto|]. intros K. apply mar_below in K. discriminate K. }
      unfold has, is_set. rewrite Q. reflexivity. }
    repeat split; vm_compute; reflexivity.
  Qed.

  (** ** A clause about what depends on a hyperparameter changes its distribution, although no clause mentions it *)
  Theorem C137_refuted : exists s hs cs fs h i p, tame s hs cs fs /\ orderly cs /\ fits s hs (laws s) /\ In h hs /\
    assoc (hp_name h) (index_of s) = Some i /\ ~ conditional cs (hp_name h) /\ (forall f g, In f fs -> In g (forb_hps f) -> hp_name g <> hp_name h) /\
    (chance (nth i (laws s) []) p == 1#2)%Q /\ (chance (independent (laws s)) (accepted s) == 7#8)%Q /\
    (chance (independent (laws s)) (column_gives s (has s (hp_name h) p)) == 3#8)%Q.
  Proof.
    assert (LA := rat_env_laws). assert (O := built_ok _ _ _ _ few_built).
    exists few_space, few_hps, few_conds, [few_and], (bin "r"), 0, one.
    split; [exact few_tame|]. split; [exact few_orderly|].
    split; [apply (laws_fit _ _ _ _ O); intros h Hh; repeat (destruct Hh as [<-|Hh]; [exact I|]); destruct Hh|].
    split; [left; reflexivity|]. split; [vm_compute; reflexivity|].
    split. { intros (c & [<-|[]] & Ha). vm_compute in Ha. discriminate Ha. }
    split. { intros f g [<-|[]] Hg. vm_compute in Hg. repeat (destruct Hg as [<-|Hg]; [discriminate|]). destruct Hg. }
    repeat split; vm_compute; reflexivity.
  Qed.
End Witness.
