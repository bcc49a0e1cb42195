(** * Property C136: unrelated parts of a space do not influence each other *)
From Coq Require Import String List ZArith QArith Qround Bool Lia Lqa Permutation Relations.
From Verif Require Import Base ListFacts Numeric HP HPProofs Properties_HP Cond Forb EqFacts Dag DagProofs
  Space CommitProofs Spec SpaceProofs CnodeProofs ForbProofs EvalProofs ForbEval MergeProofs ValidProofs ConfigProofs
  ChangeProofs PassProofs ReadProofs SampleProofs Ex Properties_Eval Properties_Config Properties_Change Properties_Sample
  Dist DistProofs Properties_Dist Properties_Size Properties_Array Properties_Reach Properties_Mass Properties_Add Properties_Exchange Properties_Chance.
Import ListNotations.
Open Scope nat_scope.

(** the entries of a dictionary that belong to these hyperparameters *)
Definition only (hs : list hp) (vals : list (string * option value)) : list (string * option value) :=
  filter (fun kv => str_in (fst kv) (map hp_name hs)) vals.

(** two parts: the conditions and clauses of each mention only its own hyperparameters, and no name occurs twice *)
Record parts (hs1 hs2 : list hp) (cs1 cs2 : list cond) (fs1 fs2 : list fclause) : Prop := {
  pt_left : refs hs1 cs1 fs1;
  pt_right : refs hs2 cs2 fs2;
  pt_names : NoDup (map hp_name (hs1 ++ hs2))
}.

Section Parts.
  Context {E : Env} {L : EnvLaws E}.

  Lemma parts_swap hs1 hs2 cs1 cs2 fs1 fs2 : parts hs1 hs2 cs1 cs2 fs1 fs2 -> parts hs2 hs1 cs2 cs1 fs2 fs1.
  Proof.
    intros [A B N]. constructor; [exact B|exact A|]. eapply Permutation_NoDup; [|exact N]. apply Permutation_map, Permutation_app_comm.
  Qed.
  Lemma parts_apart hs1 hs2 cs1 cs2 fs1 fs2 g h : parts hs1 hs2 cs1 cs2 fs1 fs2 -> In g hs1 -> In h hs2 -> hp_name g <> hp_name h.
  Proof.
    intros P Hg Hh Eq. assert (N := pt_names _ _ _ _ _ _ P). rewrite map_app in N. clear P.
    assert (A : In (hp_name g) (map hp_name hs1)) by (apply in_map; exact Hg). assert (B : In (hp_name g) (map hp_name hs2)) by (rewrite Eq; apply in_map; exact Hh).
    induction (map hp_name hs1) as [|x l IH]; [destruct A|]. simpl in N. inversion N as [|? ? N1 N2]; subst. destruct A as [->|A]; [|auto].
    apply N1. apply in_app_iff. right. exact B.
  Qed.

  Lemma child_in hs cs fs c n : refs hs cs fs -> In c cs -> activates c n -> exists h, In h hs /\ hp_name h = n.
  Proof.
    intros R Hc Ha. unfold activates, cond_child in Ha. destruct (dlcs c) as [|l ls] eqn:El; [discriminate|]. simpl in Ha.
    exists (l_child l). split; [|congruence]. apply (proj1 R c Hc l). rewrite El. left. reflexivity.
  Qed.
  Lemma active_left hs1 hs2 cs1 cs2 fs1 fs2 d h : parts hs1 hs2 cs1 cs2 fs1 fs2 -> In h hs1 ->
    (active (cs1 ++ cs2) d (hp_name h) <-> active cs1 d (hp_name h)).
  Proof.
    intros P Hh. split; intros A c Hc Ha; [apply A; [apply in_app_iff; left|]; assumption|]. apply in_app_iff in Hc. destruct Hc as [Hc|Hc]; [apply A; assumption|].
    exfalso. destruct (child_in _ _ _ _ _ (pt_right _ _ _ _ _ _ P) Hc Ha) as (g & Hg & En). exact (parts_apart _ _ _ _ _ _ _ _ P Hh Hg (eq_sym En)).
  Qed.
  Lemma active_right hs1 hs2 cs1 cs2 fs1 fs2 d h : parts hs1 hs2 cs1 cs2 fs1 fs2 -> In h hs2 ->
    (active (cs1 ++ cs2) d (hp_name h) <-> active cs2 d (hp_name h)).
  Proof.
    intros P Hh. rewrite <- (active_left hs2 hs1 cs2 cs1 fs2 fs1 d h (parts_swap _ _ _ _ _ _ P) Hh).
    split; intros A c Hc Ha; (apply A; [|exact Ha]); apply in_app_iff in Hc; apply in_app_iff; tauto.
  Qed.

  (** ** The valid assignments are the pairs of valid assignments of the parts *)
  Theorem C136_valid hs1 hs2 cs1 cs2 fs1 fs2 d : parts hs1 hs2 cs1 cs2 fs1 fs2 ->
    (valid (hs1 ++ hs2) (cs1 ++ cs2) (fs1 ++ fs2) d <-> valid hs1 cs1 fs1 d /\ valid hs2 cs2 fs2 d).
  Proof.
    intros P. split.
    - intros [Vl Va Vf]. split; constructor.
      + intros h w Hh. apply Vl. apply in_app_iff. auto.
      + intros h Hh. rewrite <- (active_left _ _ _ _ _ _ d h P Hh). apply Va. apply in_app_iff. auto.
      + intros f Hf. apply Vf. apply in_app_iff. auto.
      + intros h w Hh. apply Vl. apply in_app_iff. auto.
      + intros h Hh. rewrite <- (active_right _ _ _ _ _ _ d h P Hh). apply Va. apply in_app_iff. auto.
      + intros f Hf. apply Vf. apply in_app_iff. auto.
    - intros [[Al Aa Af] [Bl Ba Bf]]. constructor.
      + intros h w Hh. apply in_app_iff in Hh. destruct Hh; [apply Al|apply Bl]; assumption.
      + intros h Hh. apply in_app_iff in Hh. destruct Hh as [Hh|Hh].
        * rewrite (active_left _ _ _ _ _ _ d h P Hh). apply Aa, Hh.
        * rewrite (active_right _ _ _ _ _ _ d h P Hh). apply Ba, Hh.
      + intros f Hf. apply in_app_iff in Hf. destruct Hf; [apply Af|apply Bf]; assumption.
  Qed.

  (** ** A dictionary is accepted when its parts are *)
  Lemma given_only hs vals h : In h hs -> given (only hs vals) (hp_name h) = given vals (hp_name h).
  Proof.
    intros Hh. unfold given. assert (M : str_in (hp_name h) (map hp_name hs) = true) by (apply str_in_iff, in_map, Hh).
    replace (assoc (hp_name h) (only hs vals)) with (assoc (hp_name h) vals); [reflexivity|].
    induction vals as [|[k w] l IH]; [reflexivity|]. cbn [only filter fst]. destruct (String.eqb (hp_name h) k) eqn:Ek.
    - apply String.eqb_eq in Ek. subst k. rewrite M. cbn. rewrite String.eqb_refl. reflexivity.
    - destruct (str_in k (map hp_name hs)); cbn; rewrite Ek; exact IH.
  Qed.
  Lemma only_keys hs vals k : In k (map fst (only hs vals)) -> In k (map hp_name hs).
  Proof.
    intros H. apply in_map_iff in H. destruct H as ([k' w] & <- & H). apply filter_In in H. apply str_in_iff. apply H.
  Qed.
  Lemma valid_same hs cs fs d d' : refs hs cs fs -> (forall h, In h hs -> d (hp_name h) = d' (hp_name h)) -> valid hs cs fs d -> valid hs cs fs d'.
  Proof.
    intros R Eq [Vl Va Vf]. assert (Ac : forall h, In h hs -> (active cs d (hp_name h) <-> active cs d' (hp_name h))).
    { intros h Hh. assert (K : forall c, In c cs -> (holds d c <-> holds d' c)).
      { intros c Hc. apply ConfigProofs.holds_ext. intros l Hl. apply (Eq (l_parent l)). apply (proj1 R c Hc l Hl). }
      split; intros A c Hc Ha; apply (K c Hc), A; assumption. }
    constructor.
    - intros h w Hh Hw. apply (Vl h w Hh). rewrite (Eq h Hh). exact Hw.
    - intros h Hh. rewrite <- (Eq h Hh), (Va h Hh). apply Ac, Hh.
    - intros f Hf Hv. apply (Vf f Hf). eapply violated_ext; [|exact Hv]. intros n Hn. apply names_hps in Hn. destruct Hn as (h & Hh & <-).
      symmetry. apply Eq. apply (proj2 R f Hf h Hh).
  Qed.
  Lemma accepts_part s hs cs fs vals d : tame s hs cs fs -> stored hs (given vals) d -> exact_all hs (given vals) ->
    ((exists c, config_of_values s (only hs vals) false = Ok c) <-> all_legal hs (given vals) /\ valid hs cs fs d).
  Proof.
    intros T St Ex. assert (G := given_only hs vals).
    rewrite (C17_accepts_valid_partial s hs cs fs (only hs vals) d T).
    - split.
      + intros (_ & Al & V). split; [|exact V]. intros h w Hh Hw. apply (Al h w Hh). rewrite (G h Hh). exact Hw.
      + intros (Al & V). split; [intros k Hk; right; apply (only_keys hs vals k Hk)|]. split; [|exact V]. intros h w Hh Hw. apply (Al h w Hh). rewrite <- (G h Hh). exact Hw.
    - intros h Hh. rewrite (G h Hh). apply St, Hh.
    - intros h w Hh Hw. apply (Ex h w Hh). rewrite <- (G h Hh). exact Hw.
  Qed.
  Theorem C136_accepts_partial s s1 s2 hs1 hs2 cs1 cs2 fs1 fs2 vals : tame s (hs1 ++ hs2) (cs1 ++ cs2) (fs1 ++ fs2) ->
    tame s1 hs1 cs1 fs1 -> tame s2 hs2 cs2 fs2 ->
    (forall k, In k (map fst vals) -> In k (map hp_name (hs1 ++ hs2))) -> exact_all (hs1 ++ hs2) (given vals) ->
    ((exists c, config_of_values s vals false = Ok c) <->
     (exists c1, config_of_values s1 (only hs1 vals) false = Ok c1) /\ (exists c2, config_of_values s2 (only hs2 vals) false = Ok c2)).
  Proof.
    intros T T1 T2 Ks Ex. assert (O := built_ok _ _ _ _ (tm_built _ _ _ _ T)). assert (N := so_names_nodup O).
    assert (P : parts hs1 hs2 cs1 cs2 fs1 fs2) by (constructor; [apply (tm_refs _ _ _ _ T1)|apply (tm_refs _ _ _ _ T2)|exact N]).
    set (d := store (hs1 ++ hs2) (given vals)). assert (St : stored (hs1 ++ hs2) (given vals) d) by (apply store_stored, N).
    rewrite (C17_accepts_valid_partial s _ _ _ vals d T St Ex).
    rewrite (accepts_part s1 hs1 cs1 fs1 vals d T1), (accepts_part s2 hs2 cs2 fs2 vals d T2).
    - rewrite (C136_valid _ _ _ _ _ _ d P). split.
      + intros (_ & Al & V1 & V2). split; (split; [|assumption]); intros h w Hh; apply Al, in_app_iff; auto.
      + intros ((A1 & V1) & (A2 & V2)). split; [intros k Hk; right; apply Ks, Hk|]. split; [|split; assumption].
        intros h w Hh. apply in_app_iff in Hh. destruct Hh; [apply A1|apply A2]; assumption.
    - intros h Hh. apply St, in_app_iff. auto.
    - intros h w Hh. apply Ex, in_app_iff. auto.
    - intros h Hh. apply St, in_app_iff. auto.
    - intros h w Hh. apply Ex, in_app_iff. auto.
  Qed.

  (** ** An assignment in one part does there what it does in the space of this part alone, and nothing in the other *)
  Lemma updated_left hs1 hs2 cs1 cs2 fs1 fs2 d k w d' : parts hs1 hs2 cs1 cs2 fs1 fs2 ->
    updated (hs1 ++ hs2) (cs1 ++ cs2) d k w d' -> updated hs1 cs1 d k w d'.
  Proof.
    intros P [U1 U2]. split; [exact U1|]. intros h Hh Ne. rewrite <- (active_left _ _ _ _ _ _ d' h P Hh). apply U2; [apply in_app_iff; auto|exact Ne].
  Qed.
  Lemma updated_other s2 hs1 hs2 cs1 cs2 fs1 fs2 d g w d' : built s2 hs2 cs2 fs2 -> parts hs1 hs2 cs1 cs2 fs1 fs2 -> valid hs2 cs2 fs2 d -> In g hs1 ->
    updated (hs1 ++ hs2) (cs1 ++ cs2) d (hp_name g) w d' -> forall h, In h hs2 -> d' (hp_name h) = d (hp_name h).
  Proof.
    intros B P V Hg U h Hh. set (d2 := fun n => if String.eqb n (hp_name g) then Some w else d n).
    assert (Ne : forall x, In x hs2 -> hp_name x <> hp_name g) by (intros x Hx Eq; exact (parts_apart _ _ _ _ _ _ _ _ P Hg Hx (eq_sym Eq))).
    assert (D2 : forall x, In x hs2 -> d2 (hp_name x) = d (hp_name x)).
    { intros x Hx. unfold d2. rewrite (proj2 (String.eqb_neq _ _) (Ne x Hx)). reflexivity. }
    assert (V2 : valid hs2 cs2 fs2 d2) by (apply (valid_same hs2 cs2 fs2 d d2 (pt_right _ _ _ _ _ _ P)); [intros x Hx; symmetry; apply D2, Hx|exact V]).
    rewrite <- (D2 h Hh). apply (C20_unique s2 hs2 cs2 fs2 d (hp_name g) w d' d2 B (pt_right _ _ _ _ _ _ P)); [| |exact Hh].
    - split; [apply U|]. intros x Hx Nx. rewrite <- (active_right _ _ _ _ _ _ d' x P Hx). apply (proj2 U); [apply in_app_iff; auto|exact Nx].
    - split; [unfold d2; rewrite String.eqb_refl; reflexivity|]. intros x Hx Nx. assert (Va := va_active _ _ _ _ V2 x Hx). rewrite (D2 x Hx) in *. split.
      + intros A. apply Va in A. destruct (d (hp_name x)); [reflexivity|congruence].
      + intros A. destruct (d (hp_name x)); [|reflexivity]. exfalso. apply A, Va. discriminate.
  Qed.

  Lemma reads_part hs1 hs2 cs1 cs2 fs1 fs2 p n : parts hs1 hs2 cs1 cs2 fs1 fs2 -> In n (map hp_name hs1) ->
    (reads (cs1 ++ cs2) p n <-> reads cs1 p n) /\ (reads cs1 p n -> In p (map hp_name hs1)).
  Proof.
    intros P Hn. apply in_map_iff in Hn. destruct Hn as (h & <- & Hh). split; [split|].
    - intros (c & Hc & Ha & Hp). apply in_app_or in Hc. destruct Hc as [Hc|Hc]; [exists c; auto|]. exfalso.
      destruct (child_in _ _ _ _ _ (pt_right _ _ _ _ _ _ P) Hc Ha) as (g & Hg & En). exact (parts_apart _ _ _ _ _ _ _ _ P Hh Hg (eq_sym En)).
    - intros (c & Hc & Ha & Hp). exists c. split; [apply in_or_app; auto|auto].
    - intros (c & Hc & Ha & Hp). apply in_map_iff in Hp. destruct Hp as (l & <- & Hl). unfold parent_name; apply in_map; apply (proj1 (pt_left _ _ _ _ _ _ P) c Hc l Hl).
  Qed.
  Lemma chain_part hs1 hs2 cs1 cs2 fs1 fs2 n k : parts hs1 hs2 cs1 cs2 fs1 fs2 -> In n (map hp_name hs1) ->
    (chain (cs1 ++ cs2) n k <-> chain cs1 n k).
  Proof.
    intros P Hn. split; intros C; revert Hn.
    - induction C as [n|p n k C IH R]; intros Hn; [constructor|]. destruct (reads_part _ _ _ _ _ _ p n P Hn) as (Q & I). apply Q in R.
      apply (chain_more _ p); [apply IH, I, R|exact R].
    - induction C as [n|p n k C IH R]; intros Hn; [constructor|]. destruct (reads_part _ _ _ _ _ _ p n P Hn) as (Q & I).
      apply (chain_more _ p); [apply IH, I, R|apply Q, R].
  Qed.
  Lemma longest_part hs1 hs2 cs1 cs2 fs1 fs2 n k : parts hs1 hs2 cs1 cs2 fs1 fs2 -> In n (map hp_name hs1) ->
    (longest (cs1 ++ cs2) n k <-> longest cs1 n k).
  Proof.
    intros P Hn. split; intros [C M]; (split; [apply (chain_part _ _ _ _ _ _ n k P Hn), C|]); intros k' C'; apply M; apply (chain_part _ _ _ _ _ _ n k' P Hn); exact C'.
  Qed.
  Lemma chain_app cs cs' n k : chain (cs ++ cs') n k <-> chain (cs' ++ cs) n k.
  Proof.
    split; induction 1 as [n|p n k C IH (c & Hc & R)]; try constructor; apply (chain_more _ p); try exact IH; exists c; (split; [|exact R]); apply in_app_iff; apply in_app_iff in Hc; tauto.
  Qed.
  Lemma longest_app cs cs' n k : longest (cs ++ cs') n k <-> longest (cs' ++ cs) n k.
  Proof. split; intros [C M]; (split; [apply chain_app, C|]); intros k' C'; apply M, chain_app, C'. Qed.
  Lemma orderly_app cs cs' : orderly (cs ++ cs') -> orderly (cs' ++ cs).
  Proof.
    intros [S G]. assert (I : forall c, In c (cs' ++ cs) -> In c (cs ++ cs')) by (intros c Hc; apply in_app_iff; apply in_app_iff in Hc; tauto).
    constructor; [intros c c' p Hc Hc'; apply S; auto|]. intros c c' p Hc Hc' Hp Ha. destruct (G c c' p (I c Hc) (I c' Hc') Hp Ha) as (q & i & Hq & Hl & M).
    exists q, i. split; [exact Hq|]. split; [apply longest_app, Hl|]. intros q' i' Hq' Hl'. apply (M q' i' Hq'). apply longest_app, Hl'.
  Qed.
  Lemma parents_in hs cs fs c p : refs hs cs fs -> In c cs -> In p (cond_parents c) -> In p (map hp_name hs).
  Proof. intros R Hc Hp. apply in_map_iff in Hp. destruct Hp as (l & <- & Hl). unfold parent_name; apply in_map; apply (proj1 R c Hc l Hl). Qed.
  Lemma orderly_left hs1 hs2 cs1 cs2 fs1 fs2 : parts hs1 hs2 cs1 cs2 fs1 fs2 -> orderly (cs1 ++ cs2) -> orderly cs1.
  Proof.
    intros P [S G]. assert (I : forall c, In c cs1 -> In c (cs1 ++ cs2)) by (intros; apply in_or_app; auto). assert (R := pt_left _ _ _ _ _ _ P).
    constructor; [intros c c' p Hc Hc'; apply S; auto|]. intros c c' p Hc Hc' Hp Ha. destruct (G c c' p (I c Hc) (I c' Hc') Hp Ha) as (q & i & Hq & Hl & M).
    exists q, i. split; [exact Hq|]. split; [apply (longest_part _ _ _ _ _ _ q i P (parents_in _ _ _ _ _ R Hc' Hq)), Hl|].
    intros q' i' Hq' Hl'. apply (M q' i' Hq'). apply (longest_part _ _ _ _ _ _ q' i' P (parents_in _ _ _ _ _ R Hc Hq')), Hl'.
  Qed.
  Lemma apart_names hs1 hs2 cs1 cs2 fs1 fs2 n : parts hs1 hs2 cs1 cs2 fs1 fs2 -> In n (map hp_name hs1) -> In n (map hp_name hs2) -> False.
  Proof.
    intros P A B. apply in_map_iff in A, B. destruct A as (g & Eg & Hg), B as (h & Eh & Hh). apply (parts_apart _ _ _ _ _ _ _ _ P Hg Hh). congruence.
  Qed.
  Lemma orderly_half hs1 hs2 cs1 cs2 fs1 fs2 c c' : parts hs1 hs2 cs1 cs2 fs1 fs2 -> orderly cs1 -> (forall x, In x cs1 -> cond_built x) ->
    In c cs1 -> In c' (cs1 ++ cs2) ->
    (forall p, cond_equiv c c' = true -> In p (cond_parents c') -> In p (cond_parents c)) /\
    (forall p, In p (cond_parents c) -> activates c' p -> exists q i, In q (cond_parents c') /\ longest (cs1 ++ cs2) q i /\
       forall q' i', In q' (cond_parents c) -> longest (cs1 ++ cs2) q' i' -> i < i').
  Proof.
    intros P [S G] B Hc Hc'. assert (R := pt_left _ _ _ _ _ _ P). apply in_app_or in Hc'. destruct Hc' as [Hc'|Hc'].
    - split; [intros p; apply (S c c'); assumption|]. intros p Hp Ha. destruct (G c c' p Hc Hc' Hp Ha) as (q & i & Hq & Hl & M).
      exists q, i. split; [exact Hq|]. split; [apply (longest_part _ _ _ _ _ _ q i P (parents_in _ _ _ _ _ R Hc' Hq)), Hl|].
      intros q' i' Hq' Hl'. apply (M q' i' Hq'). apply (longest_part _ _ _ _ _ _ q' i' P (parents_in _ _ _ _ _ R Hc Hq')), Hl'.
    - assert (R2 := pt_right _ _ _ _ _ _ P). split.
      + intros p Eq _. exfalso. assert (I := cond_equiv_parents c c' Eq). destruct (dlcs c) as [|l ls] eqn:El; [exact (proj2 (cond_good_lits c (cond_built_good c (B c Hc))) El)|].
        assert (K : In (parent_name l) (cond_parents c)) by (unfold cond_parents; rewrite El; left; reflexivity).
        exact (apart_names _ _ _ _ _ _ _ P (parents_in _ _ _ _ _ R Hc K) (parents_in _ _ _ _ _ R2 Hc' (I _ K))).
      + intros p Hp Ha. exfalso. destruct (child_in _ _ _ _ _ R2 Hc' Ha) as (g & Hg & <-).
        exact (apart_names _ _ _ _ _ _ _ P (parents_in _ _ _ _ _ R Hc Hp) (in_map hp_name _ _ Hg)).
  Qed.

  Lemma tame_conds s hs cs fs : tame s hs cs fs -> forall c, In c cs -> cond_built c.
  Proof. intros T c. apply (so_cond_built (built_ok _ _ _ _ (tm_built _ _ _ _ T))). Qed.

  (** the order condition on the whole is the order condition on the two parts *)
  Theorem C136_orderly hs1 hs2 cs1 cs2 fs1 fs2 : parts hs1 hs2 cs1 cs2 fs1 fs2 -> (forall c, In c (cs1 ++ cs2) -> cond_built c) ->
    (orderly (cs1 ++ cs2) <-> orderly cs1 /\ orderly cs2).
  Proof.
    intros P B. assert (P' := parts_swap _ _ _ _ _ _ P). split; [intros O; split; [exact (orderly_left _ _ _ _ _ _ P O)|exact (orderly_left _ _ _ _ _ _ P' (orderly_app _ _ O))]|].
    intros (O1 & O2). assert (B1 : forall x, In x cs1 -> cond_built x) by (intros; apply B, in_or_app; auto). assert (B2 : forall x, In x cs2 -> cond_built x) by (intros; apply B, in_or_app; auto).
    assert (Sw : forall c, In c (cs1 ++ cs2) -> In c (cs2 ++ cs1)) by (intros c Hc; apply in_app_iff; apply in_app_iff in Hc; tauto).
    constructor; intros c c' p Hc Hc'.
    - apply in_app_or in Hc. destruct Hc as [Hc|Hc]; [apply (orderly_half _ _ _ _ _ _ c c' P O1 B1 Hc Hc')|apply (orderly_half _ _ _ _ _ _ c c' P' O2 B2 Hc (Sw _ Hc'))].
    - apply in_app_or in Hc. destruct Hc as [Hc|Hc]; intros Hp Ha; [apply (orderly_half _ _ _ _ _ _ c c' P O1 B1 Hc Hc' ) with (p := p); assumption|].
      destruct (orderly_half _ _ _ _ _ _ c c' P' O2 B2 Hc (Sw _ Hc')) as [_ G]. destruct (G p Hp Ha) as (q & i & Hq & Hl & M).
      exists q, i. split; [exact Hq|]. split; [apply longest_app, Hl|]. intros q' i' Hq' Hl'. apply (M q' i' Hq'). apply longest_app, Hl'.
  Qed.
  Lemma orderly_parts s s1 s2 hs1 hs2 cs1 cs2 fs1 fs2 : tame s (hs1 ++ hs2) (cs1 ++ cs2) (fs1 ++ fs2) -> tame s1 hs1 cs1 fs1 -> tame s2 hs2 cs2 fs2 ->
    orderly (cs1 ++ cs2) -> orderly cs1 /\ orderly cs2.
  Proof.
    intros T T1 T2. apply (C136_orderly hs1 hs2 cs1 cs2 fs1 fs2); [|exact (tame_conds _ _ _ _ T)].
    constructor; [apply (tm_refs _ _ _ _ T1)|apply (tm_refs _ _ _ _ T2)|apply (so_names_nodup (built_ok _ _ _ _ (tm_built _ _ _ _ T)))].
  Qed.

  Theorem C136_assignment_partial s s1 s2 hs1 hs2 cs1 cs2 fs1 fs2 c c1 d h w :
    tame s (hs1 ++ hs2) (cs1 ++ cs2) (fs1 ++ fs2) -> tame s1 hs1 cs1 fs1 -> tame s2 hs2 cs2 fs2 -> orderly (cs1 ++ cs2) ->
    represents s (hs1 ++ hs2) c d -> represents s1 hs1 c1 d -> valid (hs1 ++ hs2) (cs1 ++ cs2) (fs1 ++ fs2) d -> exact_all (hs1 ++ hs2) d ->
    In h hs1 -> d (hp_name h) <> None -> legal_value h w = true -> exact_value h w ->
    exists d', (forall g, In g hs2 -> d' (hp_name g) = d (hp_name g)) /\
      ((exists c' c1', setitem s c (hp_name h) w = (c', Ok tt) /\ represents s (hs1 ++ hs2) c' d' /\
          setitem s1 c1 (hp_name h) w = (c1', Ok tt) /\ represents s1 hs1 c1' d') \/
       (exists e e1, setitem s c (hp_name h) w = (c, Err e) /\ setitem s1 c1 (hp_name h) w = (c1, Err e1))).
  Proof.
    intros T T1 T2 Or Rp Rp1 V Ex Hh Hd Hl He. destruct (orderly_parts _ _ _ _ _ _ _ _ _ T T1 T2 Or) as (Or1 & Or2). assert (O := built_ok _ _ _ _ (tm_built _ _ _ _ T)). assert (N := so_names_nodup O).
    assert (P : parts hs1 hs2 cs1 cs2 fs1 fs2) by (constructor; [apply (tm_refs _ _ _ _ T1)|apply (tm_refs _ _ _ _ T2)|exact N]).
    destruct (proj1 (C136_valid _ _ _ _ _ _ d P) V) as [V1 V2].
    assert (Hh' : In h (hs1 ++ hs2)) by (apply in_app_iff; auto).
    destruct (C20_succeeds_partial s _ _ _ c d h w T Or Rp V Ex Hh' Hd Hl He) as (d' & U & Ex' & Y & No).
    assert (Ex1 : exact_all hs1 d) by (intros x u Hx; apply Ex, in_app_iff; auto).
    destruct (C20_succeeds_partial s1 hs1 cs1 fs1 c1 d h w T1 Or1 Rp1 V1 Ex1 Hh Hd Hl He) as (d1 & U1 & _ & Y1 & No1).
    assert (Q : forall g, In g hs1 -> d' (hp_name g) = d1 (hp_name g)).
    { apply (C20_unique s1 hs1 cs1 fs1 d (hp_name h) w d' d1 (tm_built _ _ _ _ T1) (pt_left _ _ _ _ _ _ P)); [exact (updated_left _ _ _ _ _ _ _ _ _ _ P U)|exact U1]. }
    assert (S2 := updated_other s2 _ _ _ _ _ _ d h w d' (tm_built _ _ _ _ T2) P V2 Hh U).
    exists d'. split; [exact S2|].
    assert (F : (forall f, In f (fs1 ++ fs2) -> ~ violated d' f) <-> (forall f, In f fs1 -> ~ violated d1 f)).
    { split; intros K f Hf Hv.
      - apply (K f (proj2 (in_app_iff _ _ _) (or_introl Hf))). eapply violated_ext; [|exact Hv]. intros n Hn. apply names_hps in Hn. destruct Hn as (x & Hx & <-).
        symmetry. apply Q. apply (proj2 (pt_left _ _ _ _ _ _ P) f Hf x Hx).
      - apply in_app_iff in Hf. destruct Hf as [Hf|Hf].
        + apply (K f Hf). eapply violated_ext; [|exact Hv]. intros n Hn. apply names_hps in Hn. destruct Hn as (x & Hx & <-).
          apply Q. apply (proj2 (pt_left _ _ _ _ _ _ P) f Hf x Hx).
        + apply (va_forb _ _ _ _ V2 f Hf). eapply violated_ext; [|exact Hv]. intros n Hn. apply names_hps in Hn. destruct Hn as (x & Hx & <-).
          apply S2. apply (proj2 (pt_right _ _ _ _ _ _ P) f Hf x Hx). }
    destruct (setitem s c (hp_name h) w) as [c' [[]|e]] eqn:Es.
    - assert (K : forall f, In f (fs1 ++ fs2) -> ~ violated d' f).
      { intros f Hf Hv. assert (Nv : ~ (forall f, In f (fs1 ++ fs2) -> ~ violated d' f)) by (intros K; exact (K f Hf Hv)). destruct (No Nv) as (e & He'). congruence. }
      left. destruct (Y K) as (_ & c'' & Hs & Rp''). destruct (Y1 (proj1 F K)) as (_ & c1' & Hs1 & Rp1'). exists c'', c1'. split; [congruence|]. split; [exact Rp''|].
      split; [exact Hs1|]. destruct Rp1' as [Ln Rd]. split; [exact Ln|]. intros g Hg. rewrite (Q g Hg). apply Rd, Hg.
    - right. assert (Nv : ~ (forall f, In f (fs1 ++ fs2) -> ~ violated d' f)).
      { intros K. destruct (Y K) as (_ & c'' & Hs & _). congruence. }
      destruct (No Nv) as (e' & Hs). destruct (No1 (fun K => Nv (proj2 F K))) as (e1 & Hs1). exists e', e1. split; [congruence|exact Hs1].
  Qed.
End Parts.

(** ** Draws by name *)
Section Names.
  Context (law : string -> list (fval * Q)).
  Definition put (e : string -> fval) (n : string) (x : fval) : string -> fval := fun m => if String.eqb m n then x else e m.
  (** the values of [v] for the names [ks], those of [e] for the others *)
  Fixpoint over (ks : list string) (v : list fval) (e : string -> fval) : string -> fval :=
    match ks, v with n :: ks', x :: v' => put (over ks' v' e) n x | _, _ => e end.
  Fixpoint drawing (ks : list string) (p : (string -> fval) -> bool) (e : string -> fval) : Q :=
    match ks with
    | [] => if p e then 1 else 0
    | n :: ks' => esum (law n) (fun x => drawing ks' p (put e n x))
    end%Q.
  Definition depends (ks : list string) (p : (string -> fval) -> bool) : Prop := forall e e', (forall n, In n ks -> e n = e' n) -> p e = p e'.

  Lemma put_same e n x : put e n x n = x.
  Proof. unfold put. rewrite String.eqb_refl. reflexivity. Qed.
  Lemma put_other e n x m : m <> n -> put e n x m = e m.
  Proof. unfold put. intros H. apply String.eqb_neq in H. rewrite H. reflexivity. Qed.

  Lemma drawing_ext ks p p' : (forall e, p e = p' e) -> forall e e', (forall n, e n = e' n) -> (forall a b, (forall n, a n = b n) -> p a = p b) ->
    (drawing ks p e == drawing ks p' e')%Q.
  Proof.
    intros Hp. induction ks as [|k ks IH]; intros e e' He Ex; cbn [drawing].
    - rewrite (Ex e e' He), (Hp e'). reflexivity.
    - apply esum_ext. intros x q _. apply IH; [|exact Ex]. intros n. unfold put. destruct (String.eqb n k); auto.
  Qed.
  Lemma esum_swap {A B} (l : list (A * Q)) (m : list (B * Q)) f :
    (esum l (fun x => esum m (fun y => f x y)) == esum m (fun y => esum l (fun x => f x y)))%Q.
  Proof.
    induction l as [|[x q] l IH].
    - cbn. induction m as [|[y r] m IHm]; [reflexivity|]. cbn. rewrite <- IHm. ring.
    - cbn [esum fold_right fst snd]. fold (esum l (fun x => esum m (fun y => f x y))). rewrite IH. rewrite Qmult_comm, <- esum_scale, <- esum_plus.
      apply esum_ext. intros y r _. cbn [esum fold_right fst snd]. unfold esum. ring.
  Qed.
  Lemma drawing_perm p ks ks' : (forall a b, (forall n, a n = b n) -> p a = p b) -> Permutation ks ks' -> NoDup ks -> forall e,
    (drawing ks p e == drawing ks' p e)%Q.
  Proof.
    intros Ex H. induction H as [|n l m H IH|a b l|l m k H1 IH1 H2 IH2]; intros N e; cbn [drawing].
    - reflexivity.
    - apply esum_ext. intros x q _. apply IH. inversion N; assumption.
    - rewrite esum_swap. apply esum_ext. intros x q _. apply esum_ext. intros y r _. apply drawing_ext; [reflexivity| |exact Ex].
      inversion N as [|? ? N1 N2]; subst. assert (Ne : a <> b) by (intros ->; apply N1; left; reflexivity).
      intros n. unfold put. destruct (String.eqb_spec n a) as [Ha|Ha]; destruct (String.eqb_spec n b) as [Hb|Hb]; congruence.
    - rewrite (IH1 N e). apply IH2. eapply Permutation_NoDup; eassumption.
  Qed.
  Lemma drawing_depends ks p : depends ks p -> forall e e', (drawing ks p e == drawing ks p e')%Q.
  Proof.
    assert (G : forall ks zs e e', (forall n, In n zs -> e n = e' n) -> depends (zs ++ ks) p -> (drawing ks p e == drawing ks p e')%Q).
    { clear ks. induction ks as [|k ks IH]; intros zs e e' He D; cbn [drawing].
      - rewrite app_nil_r in D. rewrite (D e e' He). reflexivity.
      - apply esum_ext. intros x q _. apply (IH (zs ++ [k])); [|rewrite <- app_assoc; exact D].
        intros n Hn. apply in_app_iff in Hn. unfold put. destruct (String.eqb_spec n k) as [->|Hk]; [reflexivity|]. destruct Hn as [Hn|[Hn|[]]]; [auto|congruence]. }
    intros D e e'. apply (G ks []); [intros n []|exact D].
  Qed.
  Lemma drawing_split ks1 ks2 p1 p2 : depends ks1 p1 -> depends ks2 p2 -> (forall n, In n ks1 -> ~ In n ks2) -> forall e,
    (drawing (ks1 ++ ks2) (fun e => p1 e && p2 e)%bool e == drawing ks1 p1 e * drawing ks2 p2 e)%Q.
  Proof.
    intros D1 D2 Dj.
    assert (R : forall e0 ks e, (forall n, In n ks1 -> e n = e0 n) -> (forall n, In n ks1 -> ~ In n ks) ->
      (drawing ks (fun e => p1 e && p2 e)%bool e == (if p1 e0 then 1 else 0) * drawing ks p2 e)%Q).
    { intros e0. induction ks as [|k ks IH]; intros e He Nk; cbn [drawing].
      - rewrite (D1 e e0 He). destruct (p1 e0), (p2 e); reflexivity.
      - rewrite Qmult_comm, <- esum_scale. apply esum_ext. intros x q _. rewrite IH; [ring| |].
        + intros n Hn. rewrite put_other; [apply He, Hn|]. intros ->. apply (Nk k Hn). left. reflexivity.
        + intros n Hn Hk. apply (Nk n Hn). right. exact Hk. }
    assert (G : forall ks e e1, (drawing (ks ++ ks2) (fun e => p1 e && p2 e)%bool e == drawing ks p1 e * drawing ks2 p2 e1)%Q).
    { induction ks as [|k ks IH]; intros e e1.
      - cbn [app drawing]. rewrite (R e ks2 e (fun _ _ => eq_refl) Dj), (drawing_depends ks2 p2 D2 e e1). reflexivity.
      - cbn [app drawing]. rewrite <- esum_scale. apply esum_ext. intros x q _. apply IH. }
    intros e. apply G.
  Qed.

  (** the draws of a vector *)
  Lemma chance_drawing p ks : (forall a b, (forall n, a n = b n) -> p a = p b) -> NoDup ks -> forall e,
    (chance (independent (map law ks)) (fun v => p (over ks v e)) == drawing ks p e)%Q.
  Proof.
    intros Ex N. revert p Ex. induction N as [|k ks Hk N IH]; intros p Ex e.
    - cbn. destruct (p e); reflexivity.
    - cbn [map]. rewrite chance_cons. cbn [drawing]. apply esum_ext. intros x q _. cbn [over].
      assert (H := IH (fun a => p (put a k x))). rewrite H.
      + clear H IH. assert (G : forall ks, ~ In k ks -> forall e, (drawing ks (fun a => p (put a k x)) e == drawing ks p (put e k x))%Q).
        { clear Hk N. induction ks0 as [|m ks0 IH]; intros Hk e0; cbn [drawing]; [reflexivity|]. apply esum_ext. intros y r _. rewrite IH by (intros H; apply Hk; right; exact H).
          apply drawing_ext; [reflexivity| |exact Ex]. intros n. unfold put. destruct (String.eqb_spec n k) as [->|Hn]; [|reflexivity].
          destruct (String.eqb_spec k m) as [->|Hm]; [|reflexivity]. exfalso. apply Hk. left. reflexivity. }
        apply G, Hk.
      + intros a b Hab. apply Ex. intros n. unfold put. destruct (String.eqb n k); auto.
  Qed.
  Lemma over_map ks : NoDup ks -> forall v e, length v = length ks -> map (over ks v e) ks = v.
  Proof.
    intros N. induction N as [|k ks Hk N IH]; intros [|x v] e Hl; try discriminate; [reflexivity|]. cbn [over map]. rewrite put_same. f_equal.
    rewrite <- (IH v e) at 2 by (simpl in Hl; lia). apply map_ext_in. intros n Hn. apply put_other. intros ->. contradiction.
  Qed.
  Lemma over_nth ks v e n i : NoDup ks -> length v = length ks -> nth_error ks i = Some n -> over ks v e n = nth i v NaN.
  Proof.
    intros N Hl Hi. assert (M := over_map ks N v e Hl). rewrite <- M at 2. symmetry. apply nth_error_nth. rewrite nth_error_map, Hi. reflexivity.
  Qed.
End Names.

(** ** Columns of a space and of its parts *)
Section Columns.
  Context {E : Env} {L : EnvLaws E}.

  Lemma sat_vec_two io io' v v' c : (forall p, In p (cond_parents c) -> vget io v p = vget io' v' p) -> sat_vec io v c = sat_vec io' v' c.
  Proof.
    induction c as [l|cs IH|cs IH] using cond_ind'; intros H; simpl.
    - unfold lit_vec. rewrite (H (parent_name l)) by (left; reflexivity). reflexivity.
    - apply forallb_ext_in. intros x Hx. rewrite Forall_forall in IH. apply IH; [exact Hx|]. intros p Hp. apply H.
      unfold cond_parents in *. apply in_map_iff in Hp. destruct Hp as (l & <- & Hl). apply in_map. eapply dlcs_in_and; eauto.
    - apply existsb_ext_in. intros x Hx. rewrite Forall_forall in IH. apply IH; [exact Hx|]. intros p Hp. apply H.
      unfold cond_parents in *. apply in_map_iff in Hp. destruct Hp as (l & <- & Hl). apply in_map. eapply dlcs_in_and; eauto.
  Qed.
  Lemma forb_vec_two io io' v v' f : (forall p, In p (forb_names f) -> vget io v p = vget io' v' p) -> forb_vec io v f = forb_vec io' v' f.
  Proof.
    induction f as [h w ww|h ws wws|r a b|l IH] using fclause_ind'; intros H; simpl.
    - rewrite (H (hp_name h)); [reflexivity|left; reflexivity].
    - rewrite (H (hp_name h)); [reflexivity|left; reflexivity].
    - rewrite (H (hp_name a)), (H (hp_name b)); [reflexivity|right; left; reflexivity|left; reflexivity].
    - rewrite Forall_forall in IH.
      assert (K : forall f, In f l -> forb_vec io v f = forb_vec io' v' f).
      { intros f Hf. apply IH; [exact Hf|]. intros p Hp. apply H. unfold forb_names in *. apply in_map_iff in Hp.
        destruct Hp as (h & <- & Hh). apply in_map. eapply forb_hps_and; eauto. }
      clear IH H. induction l as [|f l IH]; simpl; [reflexivity|]. rewrite (K f (or_introl eq_refl)).
      destruct (forb_vec io' v' f) as [[]|]; cbn [bind]; try reflexivity. apply IH. intros g Hg. apply K. right. exact Hg.
  Qed.

  (** a column is accepted when no clause matches what is left of it *)
  Lemma accepted_okf s hs cs fs v : tame s hs cs fs -> length v = s_len s -> drawn (s := s) (hs := hs) v ->
    accepted s v = true <-> forall f, In f fs -> forb_vec (index_of s) (prune (s := s) v) f = Ok false.
  Proof.
    intros T Lv D. assert (O := built_ok _ _ _ _ (tm_built _ _ _ _ T)). unfold accepted. rewrite (single_keep T v Lv D). unfold keep. cbn [filter].
    rewrite <- (okf_prune O v Lv). assert (P := so_forbs O). unfold forbidden_clauses, d_forbs in P. split.
    - destruct (okf _ (prune v)) eqn:E1; [|discriminate]. cbn [map filter]. destruct (okf (s := s) (d_cforb (s_dag s)) (prune v)) eqn:E2; [|discriminate]. intros _ f Hf.
      apply (Permutation_in _ (Permutation_sym P)) in Hf. apply in_app_iff in Hf. destruct Hf as [Hf|Hf]; [exact (proj1 (okf_iff _ _) E1 f Hf)|exact (proj1 (okf_iff _ _) E2 f Hf)].
    - intros H. replace (okf (s := s) (d_uforb (s_dag s)) (prune v)) with true.
      2: { symmetry. apply okf_iff. intros f Hf. apply H, (Permutation_in _ P), in_app_iff. auto. }
      cbn [map filter]. replace (okf (s := s) (d_cforb (s_dag s)) (prune v)) with true; [reflexivity|].
      symmetry. apply okf_iff. intros f Hf. apply H, (Permutation_in _ P), in_app_iff. auto.
  Qed.

  (** what is left of a part depends on this part only *)
  Lemma prune_part s s1 hs cs fs hs1 cs1 fs1 v v1 : tame s hs cs fs -> tame s1 hs1 cs1 fs1 -> (forall h, In h hs1 -> In h hs) -> (forall c, In c cs1 -> In c cs) ->
    (forall c h, In c cs -> In h hs1 -> activates c (hp_name h) -> In c cs1) ->
    orderly cs -> orderly cs1 -> length v = s_len s -> length v1 = s_len s1 ->
    (forall h, In h hs1 -> vget (index_of s) v (hp_name h) = vget (index_of s1) v1 (hp_name h)) ->
    forall h, In h hs1 -> vget (index_of s) (prune (s := s) v) (hp_name h) = vget (index_of s1) (prune (s := s1) v1) (hp_name h).
  Proof.
    intros T T1 Sh Sc Own Or Or1 Lv Lv1 Ag. assert (O := built_ok _ _ _ _ (tm_built _ _ _ _ T)). assert (O1 := built_ok _ _ _ _ (tm_built _ _ _ _ T1)).
    assert (G : forall n h, In h hs1 -> depth_of (d_nodes (s_dag s1)) (hp_name h) <= n ->
      vget (index_of s) (prune (s := s) v) (hp_name h) = vget (index_of s1) (prune (s := s1) v1) (hp_name h)).
    { induction n as [|n IH]; intros h Hh Hn.
      - exfalso. assert (Ik : In (hp_name h) (keys s1)) by (eapply Permutation_in; [symmetry; apply (so_keys O1)|apply in_map; exact Hh]).
        destruct (so_longest O1 _ Ik) as [_ Lg]. specialize (Lg 1 (chain_one _ _)). lia.
      - destruct (conditional_dec O1 (hp_name h)) as [(c & Hc & Ha)|Nc].
        + assert (Hh' := Sh h Hh). assert (Hc' := Sc c Hc).
          destruct (so_hp_index O h Hh') as (i & Hi & _). destruct (so_hp_index O1 h Hh) as (j & Hj & _).
          assert (Ki := proj1 (so_index O _ _) Hi). assert (Kj := proj1 (so_index O1 _ _) Hj).
          assert (A := prune_cond O v (hp_name h) c i Or (proj1 (tm_refs _ _ _ _ T)) (tm_merge _ _ _ _ T) Lv Ki Hc' Ha).
          assert (B := prune_cond O1 v1 (hp_name h) c j Or1 (proj1 (tm_refs _ _ _ _ T1)) (tm_merge _ _ _ _ T1) Lv1 Kj Hc Ha).
          assert (Q := Ag h Hh). unfold vget in Q |- *. rewrite Hi, Hj in Q |- *. rewrite A, B, Q.
          replace (sat_vec (index_of s1) (prune (s := s1) v1) c) with (sat_vec (index_of s) (prune (s := s) v) c); [reflexivity|].
          apply sat_vec_two. intros p Hp. unfold cond_parents in Hp. apply in_map_iff in Hp. destruct Hp as (l & <- & Hl).
          destruct (proj1 (tm_refs _ _ _ _ T1) c Hc l Hl) as [_ Hp]. apply (IH (l_parent l) Hp).
          assert (Rd : reads cs1 (hp_name (l_parent l)) (hp_name h)).
          { exists c. split; [exact Hc|]. split; [exact Ha|]. unfold cond_parents. apply in_map_iff. exists l. split; [reflexivity|exact Hl]. }
          assert (Ip : In (hp_name (l_parent l)) (keys s1)) by (eapply Permutation_in; [symmetry; apply (so_keys O1)|apply in_map; exact Hp]).
          assert (Ih : In (hp_name h) (keys s1)) by (eapply Permutation_in; [symmetry; apply (so_keys O1)|apply in_map; exact Hh]).
          destruct (so_longest O1 _ Ip) as [Cp _]. destruct (so_longest O1 _ Ih) as [_ Lh]. specialize (Lh _ (chain_more _ _ _ _ Cp Rd)). lia.
        + rewrite (prune_root O v _ Lv), (prune_root O1 v1 _ Lv1 Nc); [apply Ag, Hh|]. intros (c & Hc & Ha). apply Nc. exists c. split; [exact (Own c h Hc Hh Ha)|exact Ha]. }
    intros h Hh. apply (G _ h Hh (le_n _)).
  Qed.

  (** ** Chances *)
  Section Law.
    Context {s s1 s2 : space} {hs1 hs2 : list hp} {cs1 cs2 : list cond} {fs1 fs2 : list fclause}
      (T : tame s (hs1 ++ hs2) (cs1 ++ cs2) (fs1 ++ fs2)) (T1 : tame s1 hs1 cs1 fs1) (T2 : tame s2 hs2 cs2 fs2)
      (law : string -> list (fval * Q)) (F : fits s (hs1 ++ hs2) (map law (keys s))).
    Let O := built_ok _ _ _ _ (tm_built _ _ _ _ T).
    Let O1 := built_ok _ _ _ _ (tm_built _ _ _ _ T1).
    Let O2 := built_ok _ _ _ _ (tm_built _ _ _ _ T2).

    Lemma both_parts : parts hs1 hs2 cs1 cs2 fs1 fs2.
    Proof. constructor; [apply (tm_refs _ _ _ _ T1)|apply (tm_refs _ _ _ _ T2)|apply (so_names_nodup O)]. Qed.

    Lemma law_of h : In h (hs1 ++ hs2) -> (total (law (hp_name h)) == 1)%Q /\ forall x q, In (x, q) (law (hp_name h)) -> exists w, entry_of h w x.
    Proof.
      intros Hh. destruct (so_hp_index O h Hh) as (i & Hi & _). destruct F as [_ G]. specialize (G h i Hh Hi).
      assert (Ki := proj1 (so_index O _ _) Hi). assert (El : nth i (map law (keys s)) [] = law (hp_name h)) by (apply nth_error_nth; rewrite nth_error_map, Ki; reflexivity).
      rewrite El in G. exact G.
    Qed.
    Lemma fits_part s' hs' cs' fs' : space_ok s' hs' cs' fs' -> (forall h, In h hs' -> In h (hs1 ++ hs2)) -> fits s' hs' (map law (keys s')).
    Proof.
      intros O' In'. split; [rewrite map_length; apply (so_keys_len O')|]. intros h i Hh Hi. assert (Ki := proj1 (so_index O' _ _) Hi).
      assert (El : nth i (map law (keys s')) [] = law (hp_name h)) by (apply nth_error_nth; rewrite nth_error_map, Ki; reflexivity).
      rewrite El. apply law_of, In', Hh.
    Qed.

    Lemma keys_nodup s' hs' cs' fs' : space_ok s' hs' cs' fs' -> NoDup (keys s').
    Proof. intros O'. eapply Permutation_NoDup; [symmetry; apply (so_keys O')|apply (so_names_nodup O')]. Qed.

    (** the entries of [v] for a part *)
    Definition cut (s' : space) (v : list fval) : list fval := map (vget (index_of s) v) (keys s').
    Lemma cut_spec s' hs' cs' fs' v : space_ok s' hs' cs' fs' -> length (cut s' v) = s_len s' /\
      forall h, In h hs' -> vget (index_of s') (cut s' v) (hp_name h) = vget (index_of s) v (hp_name h).
    Proof.
      intros O'. split; [unfold cut; rewrite map_length; apply (so_keys_len O')|]. intros h Hh. destruct (so_hp_index O' h Hh) as (i & Hi & _).
      assert (Ki := proj1 (so_index O' _ _) Hi). unfold vget at 1. rewrite Hi. unfold cut. apply nth_error_nth. rewrite nth_error_map, Ki. reflexivity.
    Qed.

    Lemma chance_parts (p p1 p2 : list fval -> bool) :
      (forall v, length v = s_len s -> drawn (s := s) (hs := hs1 ++ hs2) v -> p v = (p1 (cut s1 v) && p2 (cut s2 v))%bool) ->
      (chance (independent (map law (keys s))) p == chance (independent (map law (keys s1))) p1 * chance (independent (map law (keys s2))) p2)%Q.
    Proof.
      intros H. set (e0 := fun _ : string => NaN). set (P1 := fun e : string -> fval => p1 (map e (keys s1))). set (P2 := fun e : string -> fval => p2 (map e (keys s2))).
      assert (D1 : depends (keys s1) P1) by (intros e e' He; unfold P1; f_equal; apply map_ext_in; exact He).
      assert (D2 : depends (keys s2) P2) by (intros e e' He; unfold P2; f_equal; apply map_ext_in; exact He).
      assert (N := keys_nodup _ _ _ _ O). assert (N1 := keys_nodup _ _ _ _ O1). assert (N2 := keys_nodup _ _ _ _ O2).
      assert (Pm : Permutation (keys s) (keys s1 ++ keys s2)).
      { rewrite (so_keys O), map_app, (so_keys O1), (so_keys O2). reflexivity. }
      assert (Dj : forall n, In n (keys s1) -> ~ In n (keys s2)).
      { intros n A B. apply (Permutation_NoDup Pm) in N. apply NoDup_app_inv in N. destruct N as (_ & _ & N). exact (N n A B). }
      assert (Len : forall s' hs' cs' fs' v q, space_ok s' hs' cs' fs' -> In (v, q) (independent (map law (keys s'))) -> length v = length (keys s')).
      { intros s' hs' cs' fs' v q O' Hv. apply independent_in in Hv. apply Forall2_len_eq in Hv. rewrite map_length in Hv. exact Hv. }
      transitivity (chance (independent (map law (keys s))) (fun v => (fun e => P1 e && P2 e)%bool (over (keys s) v e0))).
      - apply chance_ext. intros v q Hv. assert (Lv := Len _ _ _ _ v q O Hv). apply independent_in in Hv. destruct (fits_drawn T _ v F Hv) as [Ls Dv].
        rewrite (H v Ls Dv). unfold P1, P2, cut.
        assert (G : forall n, In n (keys s) -> vget (index_of s) v n = over (keys s) v e0 n).
        { intros n Hn. destruct (so_index_ex O n Hn) as (i & Hi). unfold vget. rewrite Hi. symmetry. apply over_nth; [exact N|exact Lv|apply (so_index O), Hi]. }
        f_equal; f_equal; apply map_ext_in; intros n Hn; apply G; apply (Permutation_in _ (Permutation_sym Pm)), in_app_iff; auto.
      - rewrite (chance_drawing law (fun e => P1 e && P2 e)%bool (keys s)); [|intros a b Hab; f_equal; [apply D1|apply D2]; auto|exact N].
        rewrite (drawing_perm law (fun e => P1 e && P2 e)%bool (keys s) (keys s1 ++ keys s2)); [|intros a b Hab; f_equal; [apply D1|apply D2]; auto|exact Pm|exact N].
        rewrite (drawing_split law (keys s1) (keys s2) P1 P2 D1 D2 Dj e0). apply Qmult_comp.
        + rewrite <- (chance_drawing law P1 (keys s1)); [|intros a b Hab; apply D1; auto|exact N1]. apply chance_ext. intros v q Hv. unfold P1.
          rewrite (over_map (keys s1) N1 v e0 (Len _ _ _ _ v q O1 Hv)). reflexivity.
        + rewrite <- (chance_drawing law P2 (keys s2)); [|intros a b Hab; apply D2; auto|exact N2]. apply chance_ext. intros v q Hv. unfold P2.
          rewrite (over_map (keys s2) N2 v e0 (Len _ _ _ _ v q O2 Hv)). reflexivity.
    Qed.

    Context (Or : orderly (cs1 ++ cs2)) (Or1 : orderly cs1) (Or2 : orderly cs2).

    Lemma cut_drawn s' hs' cs' fs' v : space_ok s' hs' cs' fs' -> (forall h, In h hs' -> In h (hs1 ++ hs2)) -> drawn (s := s) (hs := hs1 ++ hs2) v ->
      drawn (s := s') (hs := hs') (cut s' v).
    Proof. intros O' In' D h Hh. rewrite (proj2 (cut_spec s' hs' cs' fs' v O') h Hh). apply D, In', Hh. Qed.
    Lemma in_left h : In h hs1 -> In h (hs1 ++ hs2).
    Proof. intros H. apply in_app_iff. auto. Qed.
    Lemma in_right h : In h hs2 -> In h (hs1 ++ hs2).
    Proof. intros H. apply in_app_iff. auto. Qed.

    Lemma accepted_parts v : length v = s_len s -> drawn (s := s) (hs := hs1 ++ hs2) v -> accepted s v = (accepted s1 (cut s1 v) && accepted s2 (cut s2 v))%bool.
    Proof.
      intros Lv D. destruct (cut_spec s1 _ _ _ v O1) as [L1 A1], (cut_spec s2 _ _ _ v O2) as [L2 A2].
      assert (P := both_parts). assert (Ps := parts_swap _ _ _ _ _ _ P).
      assert (X1 : forall h, In h hs1 -> vget (index_of s) (prune (s := s) v) (hp_name h) = vget (index_of s1) (prune (s := s1) (cut s1 v)) (hp_name h)).
      { apply (prune_part s s1 _ _ _ hs1 cs1 fs1 v (cut s1 v) T T1); auto using in_left.
        - intros c Hc. apply in_app_iff. auto.
        - intros c h Hc Hh Ha. apply in_app_iff in Hc. destruct Hc as [Hc|Hc]; [exact Hc|]. exfalso.
          destruct (child_in _ _ _ _ _ (pt_right _ _ _ _ _ _ P) Hc Ha) as (g & Hg & En). exact (parts_apart _ _ _ _ _ _ _ _ P Hh Hg (eq_sym En)).
        - intros h Hh. symmetry. apply A1, Hh. }
      assert (X2 : forall h, In h hs2 -> vget (index_of s) (prune (s := s) v) (hp_name h) = vget (index_of s2) (prune (s := s2) (cut s2 v)) (hp_name h)).
      { apply (prune_part s s2 _ _ _ hs2 cs2 fs2 v (cut s2 v) T T2); auto using in_right.
        - intros c Hc. apply in_app_iff. auto.
        - intros c h Hc Hh Ha. apply in_app_iff in Hc. destruct Hc as [Hc|Hc]; [|exact Hc]. exfalso.
          destruct (child_in _ _ _ _ _ (pt_left _ _ _ _ _ _ P) Hc Ha) as (g & Hg & En). exact (parts_apart _ _ _ _ _ _ _ _ Ps Hh Hg (eq_sym En)).
        - intros h Hh. symmetry. apply A2, Hh. }
      assert (K := accepted_okf s _ _ _ v T Lv D).
      assert (K1 := accepted_okf s1 _ _ _ (cut s1 v) T1 L1 (cut_drawn s1 _ _ _ v O1 in_left D)).
      assert (K2 := accepted_okf s2 _ _ _ (cut s2 v) T2 L2 (cut_drawn s2 _ _ _ v O2 in_right D)).
      assert (Y1 : forall f, In f fs1 -> forb_vec (index_of s) (prune (s := s) v) f = forb_vec (index_of s1) (prune (s := s1) (cut s1 v)) f).
      { intros f Hf. apply forb_vec_two. intros p Hp. apply names_hps in Hp. destruct Hp as (h & Hh & <-). apply X1, (proj2 (pt_left _ _ _ _ _ _ P) f Hf h Hh). }
      assert (Y2 : forall f, In f fs2 -> forb_vec (index_of s) (prune (s := s) v) f = forb_vec (index_of s2) (prune (s := s2) (cut s2 v)) f).
      { intros f Hf. apply forb_vec_two. intros p Hp. apply names_hps in Hp. destruct Hp as (h & Hh & <-). apply X2, (proj2 (pt_right _ _ _ _ _ _ P) f Hf h Hh). }
      apply eq_true_iff_eq. rewrite andb_true_iff, K, K1, K2. split.
      - intros H. split; intros f Hf; [rewrite <- (Y1 f Hf)|rewrite <- (Y2 f Hf)]; apply H, in_app_iff; auto.
      - intros [H1 H2] f Hf. apply in_app_iff in Hf. destruct Hf as [Hf|Hf]; [rewrite (Y1 f Hf)|rewrite (Y2 f Hf)]; auto.
    Qed.

    (** a column of the space is accepted with the product of the probabilities with which columns of the parts are *)
    Lemma accepted_product : (chance (independent (map law (keys s))) (accepted s)
      == chance (independent (map law (keys s1))) (accepted s1) * chance (independent (map law (keys s2))) (accepted s2))%Q.
    Proof. apply chance_parts. apply accepted_parts. Qed.

    (** ... and so are configurations *)
    Lemma agrees_names s' hs' cs' fs' c v : space_ok s' hs' cs' fs' -> length (c_vector c) = s_len s' -> length v = s_len s' ->
      (agrees (c_vector c) v = true <-> forall h, In h hs' -> isnan (vget (index_of s') (c_vector c) (hp_name h)) = false ->
         fsame (vget (index_of s') v (hp_name h)) (vget (index_of s') (c_vector c) (hp_name h))).
    Proof.
      intros O' Lc Lv. rewrite agrees_iff. split.
      - intros [_ H] h Hh. destruct (so_hp_index O' h Hh) as (i & Hi & Hlt & _). unfold vget. rewrite Hi. apply H. lia.
      - intros H. split; [congruence|]. intros i Hi. rewrite Lc, <- (so_keys_len O') in Hi.
        destruct (nth_error (keys s') i) as [n|] eqn:Nn; [|apply nth_error_None in Nn; lia].
        assert (Hn : In n (map hp_name hs')) by (eapply Permutation_in; [apply (so_keys O')|apply (nth_error_In _ _ Nn)]).
        apply in_map_iff in Hn. destruct Hn as (h & <- & Hh). apply (so_index O') in Nn. specialize (H h Hh). unfold vget in H. rewrite Nn in H. exact H.
    Qed.
    Lemma same_entries s' hs' cs' fs' c c' d h : space_ok s' hs' cs' fs' -> (forall g, In g hs' -> In g (hs1 ++ hs2)) ->
      represents s (hs1 ++ hs2) c d -> represents s' hs' c' d -> In h hs' ->
      fsame (vget (index_of s) (c_vector c) (hp_name h)) (vget (index_of s') (c_vector c') (hp_name h)).
    Proof.
      intros O' In' [_ R] [_ R'] Hh. specialize (R h (In' h Hh)). specialize (R' h Hh). destruct (d (hp_name h)) as [w|].
      - destruct R as (_ & x & Hx & Fx). destruct R' as (_ & y & Hy & Fy). assert (x = y) by congruence. subst y. apply (fsame_trans _ x); [exact Fx|apply fsame_sym, Fy].
      - rewrite R, R'. exact I.
    Qed.
    Lemma fsame_isnan x y : fsame x y -> isnan x = isnan y.
    Proof. destruct x, y; simpl; intros H; try reflexivity; try contradiction; discriminate. Qed.

    Lemma yields_parts c c1 c2 d v : represents s (hs1 ++ hs2) c d -> represents s1 hs1 c1 d -> represents s2 hs2 c2 d ->
      exact_all (hs1 ++ hs2) d -> valid (hs1 ++ hs2) (cs1 ++ cs2) (fs1 ++ fs2) d ->
      length v = s_len s -> drawn (s := s) (hs := hs1 ++ hs2) v ->
      yields s (c_vector c) v = (yields s1 (c_vector c1) (cut s1 v) && yields s2 (c_vector c2) (cut s2 v))%bool.
    Proof.
      intros Rp Rp1 Rp2 Ex V Lv D. destruct (proj1 (C136_valid _ _ _ _ _ _ d both_parts) V) as [V1 V2].
      destruct (cut_spec s1 _ _ _ v O1) as [L1 A1], (cut_spec s2 _ _ _ v O2) as [L2 A2].
      assert (Ex1 : exact_all hs1 d) by (intros h w Hh; apply Ex, in_left, Hh). assert (Ex2 : exact_all hs2 d) by (intros h w Hh; apply Ex, in_right, Hh).
      rewrite (keep_valid T c d v Or Rp Ex V Lv D), (keep_valid T1 c1 d _ Or1 Rp1 Ex1 V1 L1 (cut_drawn s1 _ _ _ v O1 in_left D)).
      rewrite (keep_valid T2 c2 d _ Or2 Rp2 Ex2 V2 L2 (cut_drawn s2 _ _ _ v O2 in_right D)).
      apply eq_true_iff_eq. rewrite andb_true_iff, (agrees_names s _ _ _ c v O (proj1 Rp) Lv), (agrees_names s1 _ _ _ c1 _ O1 (proj1 Rp1) L1), (agrees_names s2 _ _ _ c2 _ O2 (proj1 Rp2) L2).
      assert (S1 : forall h, In h hs1 -> fsame (vget (index_of s) (c_vector c) (hp_name h)) (vget (index_of s1) (c_vector c1) (hp_name h))).
      { intros h Hh. exact (same_entries s1 _ _ _ c c1 d h O1 in_left Rp Rp1 Hh). }
      assert (S2 : forall h, In h hs2 -> fsame (vget (index_of s) (c_vector c) (hp_name h)) (vget (index_of s2) (c_vector c2) (hp_name h))).
      { intros h Hh. exact (same_entries s2 _ _ _ c c2 d h O2 in_right Rp Rp2 Hh). }
      split.
      - intros H. split; intros h Hh Nn.
        + rewrite (A1 h Hh). apply (fsame_trans _ (vget (index_of s) (c_vector c) (hp_name h))); [|apply S1, Hh]. apply H; [apply in_left, Hh|]. rewrite (fsame_isnan _ _ (S1 h Hh)). exact Nn.
        + rewrite (A2 h Hh). apply (fsame_trans _ (vget (index_of s) (c_vector c) (hp_name h))); [|apply S2, Hh]. apply H; [apply in_right, Hh|]. rewrite (fsame_isnan _ _ (S2 h Hh)). exact Nn.
      - intros [H1 H2] h Hh Nn. apply in_app_iff in Hh. destruct Hh as [Hh|Hh].
        + rewrite (fsame_isnan _ _ (S1 h Hh)) in Nn. specialize (H1 h Hh Nn). rewrite (A1 h Hh) in H1. eapply fsame_trans; [exact H1|apply fsame_sym, S1, Hh].
        + rewrite (fsame_isnan _ _ (S2 h Hh)) in Nn. specialize (H2 h Hh Nn). rewrite (A2 h Hh) in H2. eapply fsame_trans; [exact H2|apply fsame_sym, S2, Hh].
    Qed.
    Lemma yields_product c c1 c2 d : represents s (hs1 ++ hs2) c d -> represents s1 hs1 c1 d -> represents s2 hs2 c2 d ->
      exact_all (hs1 ++ hs2) d -> valid (hs1 ++ hs2) (cs1 ++ cs2) (fs1 ++ fs2) d ->
      (chance (independent (map law (keys s))) (yields s (c_vector c))
       == chance (independent (map law (keys s1))) (yields s1 (c_vector c1)) * chance (independent (map law (keys s2))) (yields s2 (c_vector c2)))%Q.
    Proof. intros Rp Rp1 Rp2 Ex V. apply chance_parts. intros v Lv D. exact (yields_parts c c1 c2 d v Rp Rp1 Rp2 Ex V Lv D). Qed.
  End Law.

  (** ** Sampling: the probabilities of the parts are multiplied *)
  Theorem C136_accepted_partial s s1 s2 hs1 hs2 cs1 cs2 fs1 fs2 law :
    tame s (hs1 ++ hs2) (cs1 ++ cs2) (fs1 ++ fs2) -> tame s1 hs1 cs1 fs1 -> tame s2 hs2 cs2 fs2 -> orderly (cs1 ++ cs2) ->
    fits s (hs1 ++ hs2) (map law (keys s)) ->
    (chance (independent (map law (keys s))) (accepted s)
     == chance (independent (map law (keys s1))) (accepted s1) * chance (independent (map law (keys s2))) (accepted s2))%Q.
  Proof. intros T T1 T2 Or F. destruct (orderly_parts _ _ _ _ _ _ _ _ _ T T1 T2 Or) as (Or1 & Or2). exact (accepted_product T T1 T2 law F Or Or1 Or2). Qed.

  Theorem C136_column_partial s s1 s2 hs1 hs2 cs1 cs2 fs1 fs2 law c c1 c2 d :
    tame s (hs1 ++ hs2) (cs1 ++ cs2) (fs1 ++ fs2) -> tame s1 hs1 cs1 fs1 -> tame s2 hs2 cs2 fs2 -> orderly (cs1 ++ cs2) ->
    fits s (hs1 ++ hs2) (map law (keys s)) ->
    represents s (hs1 ++ hs2) c d -> represents s1 hs1 c1 d -> represents s2 hs2 c2 d ->
    exact_all (hs1 ++ hs2) d -> valid (hs1 ++ hs2) (cs1 ++ cs2) (fs1 ++ fs2) d ->
    (chance (independent (map law (keys s))) (yields s (c_vector c))
     == chance (independent (map law (keys s1))) (yields s1 (c_vector c1)) * chance (independent (map law (keys s2))) (yields s2 (c_vector c2)))%Q.
  Proof. intros T T1 T2 Or F. destruct (orderly_parts _ _ _ _ _ _ _ _ _ T T1 T2 Or) as (Or1 & Or2). exact (yields_product T T1 T2 law F Or Or1 Or2 c c1 c2 d). Qed.

  (** sample_configuration() of the whole space within some rounds: given that something was accepted, the product of what the parts give *)
  Theorem C136_sample_partial s s1 s2 hs1 hs2 cs1 cs2 fs1 fs2 law c c1 c2 d fuel :
    tame s (hs1 ++ hs2) (cs1 ++ cs2) (fs1 ++ fs2) -> tame s1 hs1 cs1 fs1 -> tame s2 hs2 cs2 fs2 -> orderly (cs1 ++ cs2) ->
    hs1 <> [] -> fits s (hs1 ++ hs2) (map law (keys s)) ->
    represents s (hs1 ++ hs2) c d -> represents s1 hs1 c1 d -> represents s2 hs2 c2 d ->
    exact_all (hs1 ++ hs2) d -> valid (hs1 ++ hs2) (cs1 ++ cs2) (fs1 ++ fs2) d ->
    let a1 := chance (independent (map law (keys s1))) (accepted s1) in
    let a2 := chance (independent (map law (keys s2))) (accepted s2) in
    (a1 * a2 * chance (independent (repeat (independent (map law (keys s))) (fuel * next_size s 1))) (returns s fuel (c_vector c))
     == chance (independent (map law (keys s1))) (yields s1 (c_vector c1)) * chance (independent (map law (keys s2))) (yields s2 (c_vector c2))
        * (1 - qpow (1 - a1 * a2) (fuel * next_size s 1)))%Q.
  Proof.
    intros T T1 T2 Or N1 F Rp Rp1 Rp2 Ex V a1 a2.
    assert (A := C136_accepted_partial s s1 s2 hs1 hs2 cs1 cs2 fs1 fs2 law T T1 T2 Or F). fold a1 a2 in A.
    assert (Y := C136_column_partial s s1 s2 hs1 hs2 cs1 cs2 fs1 fs2 law c c1 c2 d T T1 T2 Or F Rp Rp1 Rp2 Ex V).
    assert (S := C132_sample_partial s (hs1 ++ hs2) (cs1 ++ cs2) (fs1 ++ fs2) (map law (keys s)) c d fuel T Or).
    rewrite (C132_column_partial s _ _ _ _ c d T Or F Rp Ex V) in Y. rewrite <- Y. cbv zeta in S.
    assert (Qp : forall n, (qpow (1 - chance (independent (map law (keys s))) (accepted s)) n == qpow (1 - a1 * a2) n)%Q).
    { induction n as [|n IH]; [reflexivity|]. cbn [qpow]. rewrite IH, A. reflexivity. }
    rewrite <- Qp, <- A. apply S; [destruct hs1; [congruence|discriminate]|exact F|exact Rp|exact Ex|exact V].
  Qed.
End Columns.

(** ** Examples: x is active when r is 1; p = 0 and q = 0 are forbidden together *)
Section Witness.
  #[local] Existing Instance rat_env.
  #[local] Existing Instance rat_env_laws.
  Definition left_hps := [bin "r"; bin "x"].
  Definition left_conds := [on "1" "x" "r"].
  Definition right_hps := [bin "p"; bin "q"].
  Definition right_p := get_or dummy_forb (mk_feq (bin "p") (VStr "0")).
  Definition right_q := get_or dummy_forb (mk_feq (bin "q") (VStr "0")).
  Definition right_and := get_or dummy_forb (mk_fand [right_p; right_q]).
  Definition left_space := fst (add empty_space left_hps left_conds []).
  Definition right_space := fst (add empty_space right_hps [] [right_and]).
  Definition both_space := fst (add empty_space (left_hps ++ right_hps) (left_conds ++ []) ([] ++ [right_and])).

  Lemma left_hps_c : Forall constructed left_hps.
  Proof. repeat (constructor; [apply bin_c|]). constructor. Qed.
  Lemma right_hps_c : Forall constructed right_hps.
  Proof. repeat (constructor; [apply bin_c|]). constructor. Qed.
  Lemma left_conds_c : Forall cond_built left_conds.
  Proof. constructor; [|constructor]. apply (CB_bin OpEq (bin "x") (bin "r") (VStr "1") _ (bin_c _) (bin_c _)); vm_compute; reflexivity. Qed.
  Lemma right_and_c : Forall forb_built [right_and].
  Proof.
    constructor; [|constructor]. apply (FB_and [right_p; right_q] right_and); [|vm_compute; reflexivity]. intros g [<-|[<-|[]]].
    - apply (FB_eq (bin "p") (VStr "0") right_p (bin_c _)). vm_compute. reflexivity.
    - apply (FB_eq (bin "q") (VStr "0") right_q (bin_c _)). vm_compute. reflexivity.
  Qed.
  Ltac tame_parts :=
    split; [intros c Hc; repeat (destruct Hc as [<-|Hc]; [intros l Hl; vm_compute in Hl; repeat (destruct Hl as [<-|Hl]; [split; vm_compute; tauto|]); tauto|]); destruct Hc
           |intros g Hg; repeat (destruct Hg as [<-|Hg]; [intros h Hh; vm_compute in Hh; repeat (destruct Hh as [<-|Hh]; [vm_compute; tauto|]); destruct Hh|]); destruct Hg].
  Ltac tame_ne := intros c l w vv Hc Hl Ht; repeat (destruct Hc as [<-|Hc]; [vm_compute in Hl; repeat (destruct Hl as [<-|Hl]; [exfalso; clear -Ht; vm_compute in Ht; discriminate Ht|]); destruct Hl|]); destruct Hc.
  Ltac tame_cmp := intros g Hg; repeat (destruct Hg as [<-|Hg]; [intros r a b Hr; exfalso; vm_compute in Hr; repeat (destruct Hr as [Hr|Hr]; [discriminate Hr|]); destruct Hr|]); destruct Hg.
  Lemma left_tame : tame left_space left_hps left_conds [].
  Proof.
    constructor; [|tame_parts| |tame_ne|tame_cmp].
    - apply (built_step empty_space [] [] [] left_hps left_conds [] built_empty left_hps_c left_conds_c (Forall_nil _)). vm_compute. reflexivity.
    - intros c d v [<-|[]] [<-|[]] H. reflexivity.
  Qed.
  Lemma right_tame : tame right_space right_hps [] [right_and].
  Proof.
    constructor; [|tame_parts| |tame_ne|tame_cmp].
    - apply (built_step empty_space [] [] [] right_hps [] [right_and] built_empty right_hps_c (Forall_nil _) right_and_c). vm_compute. reflexivity.
    - intros c d v [].
  Qed.
  Lemma both_tame : tame both_space (left_hps ++ right_hps) (left_conds ++ []) ([] ++ [right_and]).
  Proof.
    constructor; [|tame_parts| |tame_ne|tame_cmp].
    - apply (built_step empty_space [] [] [] (left_hps ++ right_hps) (left_conds ++ []) ([] ++ [right_and]) built_empty).
      + apply Forall_app. split; [apply left_hps_c|apply right_hps_c].
      + apply left_conds_c.
      + apply right_and_c.
      + vm_compute. reflexivity.
    - intros c d v [<-|[]] [<-|[]] H. reflexivity.
  Qed.
  Lemma left_orderly : orderly left_conds.
  Proof. exact few_orderly. Qed.
  Lemma none_orderly : orderly [].
  Proof. constructor; intros c c' p []. Qed.

  Definition both_vals : list (string * option value) := [("q", Some (VStr "1")); ("r", Some (VStr "0")); ("p", Some (VStr "0"))]%string.
  Definition both_config := get_or (mk_config [] None false) (config_of_values both_space both_vals false).
  Definition left_config := get_or (mk_config [] None false) (config_of_values left_space (only left_hps both_vals) false).
  Definition right_config := get_or (mk_config [] None false) (config_of_values right_space (only right_hps both_vals) false).

  Definition bin_law (n : string) : list (fval * Q) := sample_law (bin n).

  (** half of the columns give r = 0, a quarter p = 0 and q = 1, an eighth all of them; a quarter of the columns is rejected *)
  Example C136_ex : parts left_hps right_hps left_conds [] [] [right_and] /\
    tame both_space (left_hps ++ right_hps) (left_conds ++ []) ([] ++ [right_and]) /\ tame left_space left_hps left_conds [] /\
    tame right_space right_hps [] [right_and] /\ orderly (left_conds ++ []) /\ orderly left_conds /\ orderly [] /\
    fits both_space (left_hps ++ right_hps) (map bin_law (keys both_space)) /\
    only left_hps both_vals = [("r", Some (VStr "0"))]%string /\ keys both_space = ["p"; "q"; "r"; "x"]%string /\
    config_of_values both_space both_vals false = Ok both_config /\
    config_of_values left_space (only left_hps both_vals) false = Ok left_config /\
    config_of_values right_space (only right_hps both_vals) false = Ok right_config /\
    (chance (independent (map bin_law (keys left_space))) (yields left_space (c_vector left_config)) == 1#2)%Q /\
    (chance (independent (map bin_law (keys right_space))) (yields right_space (c_vector right_config)) == 1#4)%Q /\
    (chance (independent (map bin_law (keys both_space))) (yields both_space (c_vector both_config)) == 1#8)%Q /\
    (chance (independent (map bin_law (keys right_space))) (accepted right_space) == 3#4)%Q /\
    (chance (independent (map bin_law (keys both_space))) (accepted both_space) == 3#4)%Q /\
    getitem left_space (fst (setitem left_space left_config "r" (VStr "1"))) "x" = Ok (VStr "1") /\
    getitem both_space (fst (setitem both_space both_config "r" (VStr "1"))) "x" = Ok (VStr "1") /\
    getitem both_space (fst (setitem both_space both_config "r" (VStr "1"))) "q" = Ok (VStr "1").
  Proof.
    assert (O := built_ok _ _ _ _ (tm_built _ _ _ _ both_tame)).
    split; [constructor; [apply (tm_refs _ _ _ _ left_tame)|apply (tm_refs _ _ _ _ right_tame)|apply (so_names_nodup O)]|].
    split; [exact both_tame|]. split; [exact left_tame|]. split; [exact right_tame|]. split; [exact left_orderly|]. split; [exact left_orderly|]. split; [exact none_orderly|].
    split; [|repeat split; vm_compute; reflexivity].
    assert (G := laws_fit both_space _ _ _ O). replace (map bin_law (keys both_space)) with (laws both_space) by (vm_compute; reflexivity). apply G.
    intros h Hh. repeat (destruct Hh as [<-|Hh]; [exact I|]). destruct Hh.
  Qed.
End Witness.
