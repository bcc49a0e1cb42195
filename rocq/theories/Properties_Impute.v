(** * Property C125: impute_inactive_values *)
From Coq Require Import String List ZArith QArith Bool Lia Permutation Relations.
From Verif Require Import Base ListFacts Numeric NumericProofs HP HPProofs Properties_HP Cond Forb EqFacts Dag DagProofs Space CommitProofs Spec
  SpaceProofs CnodeProofs ForbProofs EvalProofs ForbEval MergeProofs ValidProofs ConfigProofs ChangeProofs ReadProofs Ex Properties_Eval Properties_Config
  Properties_Change Dist DistProofs Properties_Dist Util LookupProofs ExchangeProofs Properties_Exchange Random Properties_Raise Properties_Random Repair
  Properties_Repair Properties_Serial Properties_Tried Properties_Grow.
From Verif Require Import Space Random Properties_Random Properties_Repair.
Import ListNotations.
Open Scope nat_scope.

Section Impute.
  Context {E : Env} {L : EnvLaws E}.

  (** the value for an inactive hyperparameter *)
  Definition substitute (st : strategy) (h : hp) : value := match st with SDefault => hp_default h | SFloat q => VFloat q end.

  Lemma impute_dict s hs cs fs c st : built s hs cs fs -> made s hs c -> exists vals,
    impute s c st = config_of_values s vals true /\ map fst vals = keys s /\
    forall h, In h hs -> given vals (hp_name h) = Some (match reading s c (hp_name h) with Some w => w | None => substitute st h end).
  Proof.
    intros B Md. assert (O := built_ok _ _ _ _ B).
    assert (K : forall k, (exists w, getitem s c k = Ok w) \/ getitem s c k = Err KeyError).
    { intros k. destruct (made_read O c k Md) as [H1 H2]. destruct (in_dec string_dec k (iter s c)) as [Hi|Hi]; [left|right; auto].
      destruct (H1 Hi) as (h & w & _ & _ & Hw & _). eauto. }
    unfold impute. set (f := fun e : string * hp => _).
    assert (G : forall its, NoDup (map fst its) -> exists vals, mapM f its = Ok vals /\ map fst vals = map fst its /\
      forall k g, In (k, g) its -> given vals k = Some (match reading s c k with Some w => w | None => substitute st g end)).
    { induction its as [|[k g] its IH]; intros ND; [exists []; split; [reflexivity|]; split; [reflexivity|intros k g []]|].
      simpl in ND. apply NoDup_cons_iff in ND. destruct ND as [Hn ND]. destruct (IH ND) as (vs & H1 & H2 & H3).
      assert (F : f (k, g) = Ok (k, Some (match reading s c k with Some w => w | None => substitute st g end))).
      { unfold f, reading. simpl. destruct (K k) as [(w & Hw)|Hw]; rewrite Hw; [reflexivity|]. destruct st; reflexivity. }
      eexists. split; [cbn [mapM]; rewrite F, H1; reflexivity|]. split; [simpl; rewrite H2; reflexivity|].
      intros k' g' [[= <- <-]|Hi]; unfold given; simpl; [rewrite String.eqb_refl; reflexivity|].
      destruct (String.eqb_spec k' k) as [->|]; [exfalso; apply Hn; apply in_map_iff; exists (k, g'); auto|]. apply (H3 k' g' Hi). }
    destruct (G (items s)) as (vals & H1 & H2 & H3); [rewrite items_keys; apply (so_nodup O)|].
    exists vals. rewrite H1. split; [reflexivity|]. split; [rewrite H2; apply items_keys|].
    intros h Hh. apply (H3 (hp_name h) h). apply (so_items O). auto.
  Qed.

  (** ** C125: every hyperparameter has a value afterwards, the values there were are kept *)
  Theorem C125_fills s hs cs fs c st c' : built s hs cs fs -> made s hs c -> impute s c st = Ok c' -> forall h, In h hs ->
    (forall w, getitem s c (hp_name h) = Ok w -> exists w', getitem s c' (hp_name h) = Ok w' /\ py_eqb w' w = true) /\
    (getitem s c (hp_name h) = Err KeyError -> getitem s c' (hp_name h) = Ok (round_value h (substitute st h))).
  Proof.
    intros B Md H h Hh. assert (O := built_ok _ _ _ _ B). destruct (impute_dict s hs cs fs c st B Md) as (vals & Q & _ & G). rewrite Q in H.
    destruct (C18_reads s hs cs fs vals true c' B H) as (R1 & _ & _). specialize (G h Hh). unfold reading in G. split.
    - intros w Hw. rewrite Hw in G. exists (round_value h w). split; [apply R1; assumption|].
      destruct (in_dec string_dec (hp_name h) (iter s c)) as [Hi|Hi].
      + destruct (proj1 (made_read O c (hp_name h) Md) Hi) as (h' & w' & Hh' & Hn & Hw' & P).
        assert (h' = h) by (apply (same_hp hs); auto using (so_names_nodup O)). subst h'. assert (w' = w) by congruence. subst w'. exact P.
      + rewrite (proj2 (made_read O c (hp_name h) Md) Hi) in Hw. discriminate.
    - intros Hw. rewrite Hw in G. apply R1; assumption.
  Qed.

  (** the values [d] completed *)
  Definition completed (st : strategy) (hs : list hp) (d d0 : assignment) : Prop :=
    forall h, In h hs -> d0 (hp_name h) = Some (match d (hp_name h) with Some w => w | None => round_value h (substitute st h) end).

  Section Values.
    Variables (s : space) (hs : list hp) (cs : list cond) (fs : list fclause) (c : config) (st : strategy) (d d0 : assignment).
    Hypothesis T : tame s hs cs fs.
    Hypothesis Md : made s hs c.
    Hypothesis Ca : carries s hs c d.
    Hypothesis Al : all_legal hs d.
    Hypothesis Ex : exact_all hs d.
    Hypothesis Rd : rounded hs d.
    Hypothesis Xs : forall h, In h hs -> d (hp_name h) = None -> exact_value h (substitute st h).
    Hypothesis Cd : completed st hs d d0.

    Lemma reads_d h : In h hs -> match d (hp_name h) with
      | Some u => exists z, reading s c (hp_name h) = Some z /\ py_eqb z u = true
      | None => reading s c (hp_name h) = None
      end.
    Proof.
      intros Hh. assert (O := built_ok _ _ _ _ (tm_built _ _ _ _ T)). destruct Ca as [[_ Rep] Sh]. specialize (Rep h Hh). unfold reading.
      destruct (d (hp_name h)) as [u|] eqn:Eu.
      - destruct (Sh h u Hh Eu) as (z & Hz & Q). exists z. rewrite Hz. split; [reflexivity|]. apply (py_eqb_trans _ _ _ Q (Rd h u Hh Eu)).
      - rewrite (proj2 (made_read O c (hp_name h) Md)); [reflexivity|]. intros Hi. apply (iter_in O) in Hi. destruct Hi as (h' & _ & Hn & K). congruence.
    Qed.

    Definition legal_rest : Prop := forall h, In h hs -> d (hp_name h) = None -> legal_value h (substitute st h) = true.

    Lemma impute_facts : exists vals, impute s c st = config_of_values s vals true /\
      (forall k, In k (map fst vals) -> In k (map hp_name hs)) /\
      (forall h w, In h hs -> given vals (hp_name h) = Some w ->
        (exists u, d (hp_name h) = Some u /\ py_eqb w u = true) \/ (d (hp_name h) = None /\ w = substitute st h)) /\
      (all_legal hs (given vals) <-> legal_rest) /\ exact_all hs (given vals) /\
      forall d1, stored hs (given vals) d1 -> (forall h, In h hs -> below d1 d0 (hp_name h)) /\ (forall h, In h hs -> below d0 d1 (hp_name h)).
    Proof.
      assert (B := tm_built _ _ _ _ T). assert (O := built_ok _ _ _ _ B). destruct (impute_dict s hs cs fs c st B Md) as (vals & Q & Kv & G).
      exists vals. split; [exact Q|]. split.
      { intros k Hk. rewrite Kv in Hk. apply (keys_hs O) in Hk. destruct Hk as (h & Hh & <-). apply in_map. exact Hh. }
      assert (V : forall h w, In h hs -> given vals (hp_name h) = Some w ->
        (exists u, d (hp_name h) = Some u /\ py_eqb w u = true) \/ (d (hp_name h) = None /\ w = substitute st h)).
      { intros h w Hh Hw. rewrite (G h Hh) in Hw. injection Hw as <-. assert (R := reads_d h Hh). destruct (d (hp_name h)) as [u|].
        - destruct R as (z & Hz & P). rewrite Hz. left. eauto.
        - rewrite R. right. auto. }
      split; [exact V|]. split; [|split].
      - split.
        + intros A h Hh Hd. apply (A h _ Hh). rewrite (G h Hh). assert (R := reads_d h Hh). rewrite Hd in R. rewrite R. reflexivity.
        + intros A h w Hh Hw. destruct (V h w Hh Hw) as [(u & Hu & P)|[Hd ->]]; [|exact (A h Hh Hd)].
          apply (legal_congr h u w); [rewrite py_eqb_sym; exact P|exact (Al h u Hh Hu)].
      - intros h w Hh Hw. destruct (V h w Hh Hw) as [(u & Hu & P)|[Hd ->]]; [|exact (Xs h Hh Hd)]. apply (exact_congr h w u P (Ex h u Hh Hu)).
      - intros d1 St.
        assert (Two : forall h, In h hs -> exists a b, d1 (hp_name h) = Some a /\ d0 (hp_name h) = Some b /\ py_eqb a b = true).
        { intros h Hh. rewrite (St h Hh), (G h Hh), (Cd h Hh). simpl. eexists. eexists. split; [reflexivity|]. split; [reflexivity|].
          assert (R := reads_d h Hh). destruct (d (hp_name h)) as [u|] eqn:Eu.
          - destruct R as (z & -> & P). apply (py_eqb_trans _ (round_value h u)); [apply round_congr; exact P|exact (Rd h u Hh Eu)].
          - rewrite R. apply py_eqb_refl. }
        split; intros h Hh w Hw; destruct (Two h Hh) as (a & b & Ha & Hb & P).
        + assert (w = a) by congruence. subst w. eauto.
        + assert (w = b) by congruence. subst w. exists a. split; [exact Ha|]. rewrite py_eqb_sym. exact P.
    Qed.

    (** ** C125: it succeeds exactly when the substituted values are legal and no clause forbids the result *)
    Theorem C125_succeeds_partial : (exists c', impute s c st = Ok c') <-> legal_rest /\ forall f, In f fs -> ~ violated d0 f.
    Proof.
      destruct impute_facts as (vals & Q & Kn & V0 & Le & Xv & Bl). assert (O := built_ok _ _ _ _ (tm_built _ _ _ _ T)).
      assert (St := store_stored hs (given vals) (so_names_nodup O)). destruct (Bl _ St) as [B1 B2]. rewrite Q.
      rewrite (C68_allow_partial s hs cs fs vals _ T St Xv), Le. assert (R := tm_refs _ _ _ _ T). split.
      - intros (_ & H1 & _ & H2). split; [exact H1|]. intros f Hf V. apply (H2 f Hf). apply (forb_mono hs cs fs d0 _ f R B2 Hf V).
      - intros [H1 H2]. split; [right; auto|]. split; [exact H1|]. split.
        + intros h Hh _. destruct (B2 h Hh _ (Cd h Hh)) as (w & Hw & _). congruence.
        + intros f Hf V. apply (H2 f Hf). apply (forb_mono hs cs fs _ d0 f R B1 Hf V).
    Qed.

    (** ... and the exception tells which of the two it was *)
    Theorem C125_raises_partial e : impute s c st = Err e ->
      (e = IllegalValueError /\ exists h, In h hs /\ d (hp_name h) = None /\ legal_value h (substitute st h) = false) \/
      (e = ForbiddenValueError /\ legal_rest /\ exists f, In f fs /\ violated d0 f).
    Proof.
      destruct impute_facts as (vals & Q & Kn & V0 & Le & Xv & Bl). assert (B := tm_built _ _ _ _ T). assert (O := built_ok _ _ _ _ B). rewrite Q. intros H.
      destruct (C68_reason_partial s hs cs fs vals true e T Xv H) as [k Hk Nk|h w Hh Hw Lw|d1 e' _ A St F].
      - exfalso. exact (Nk (Kn k Hk)).
      - left. split; [reflexivity|]. exists h. split; [exact Hh|]. destruct (V0 h w Hh Hw) as [(u & Hu & P)|[Hd ->]]; [|auto]. exfalso.
        rewrite (legal_congr h u w) in Lw; [discriminate|rewrite py_eqb_sym; exact P|exact (Al h u Hh Hu)].
      - right. destruct (Bl _ St) as [B1 B2]. inversion F as [h Hh Ac Hd|h Hf Hh Ac Hd|f H1 H2 Hf V]; subst.
        + exfalso. destruct (B2 h Hh _ (Cd h Hh)) as (w & Hw & _). congruence.
        + discriminate.
        + split; [reflexivity|]. split; [apply Le; exact A|]. exists f. split; [exact Hf|]. apply (forb_mono hs cs fs d1 d0 f (tm_refs _ _ _ _ T) B1 Hf V).
    Qed.

    (** ** C125: deactivate_inactive_hyperparameters takes the substituted values away again *)
    Theorem C125_back_partial c' : valid hs cs fs d -> impute s c st = Ok c' ->
      exists vals, dict_of s c' = Ok vals /\ exists N, forall fuel, N <= fuel -> exists c2,
        deactivate_inactive fuel s (Some (some_values vals)) None = Ok c2 /\
        exists d2, carries s hs c2 d2 /\ valid hs cs fs d2 /\
          forall h, In h hs -> match d (hp_name h), d2 (hp_name h) with Some u, Some u2 => py_eqb u2 u = true | None, None => True | _, _ => False end.
    Proof.
      intros V H. destruct impute_facts as (vals & Q & Kn & V0 & Le & Xv & Bl). assert (B := tm_built _ _ _ _ T). assert (O := built_ok _ _ _ _ B).
      assert (ND := so_names_nodup O). assert (R := tm_refs _ _ _ _ T). rewrite Q in H.
      assert (St := store_stored hs (given vals) ND). set (e1 := store hs (given vals)) in *.
      destruct (lax_values s hs cs fs vals e1 c' T St Xv H) as [Ca1 Lx1]. destruct (Bl _ St) as [B1 B2].
      destruct (dict_shown s hs cs fs c' e1 B (proj1 Ca1) (proj2 Ca1)) as (dv & Hdv & Ds). exists dv. split; [exact Hdv|].
      destruct (dict_facts hs dv e1 (so_constructed O) Ds (lx_legal _ _ _ _ Lx1) (lx_exact _ _ _ _ Lx1) (lx_round _ _ _ _ Lx1) ND) as (Gl & Gx & D1 & D2 & Kd).
      assert (St2 := store_stored hs (given (some_values dv)) ND). set (e2 := store hs (given (some_values dv))) in *.
      destruct (dict_lax s hs cs fs dv e1 T Ds Lx1) as (c0 & H0). destruct (C69_ends s hs cs fs B) as (N & HN). exists N. intros fuel Hf.
      assert (F2 : forall h, In h hs -> exists w, e2 (hp_name h) = Some w).
      { intros h Hh. destruct (B2 h Hh _ (Cd h Hh)) as (w & Hw & _). destruct (D2 h Hh w Hw) as (w' & Hw' & _). eauto. }
      assert (Lk : linked hs cs e2).
      { intros h Hh _ (k & Hk & Ha). unfold activates, cond_child in Ha. assert (Hp : exists l, In l (dlcs k)).
        { destruct (dlcs k) as [|l l0]; [discriminate|]. exists l. left. reflexivity. }
        destruct Hp as (l & Hl). exists (parent_name l). split.
        - exists k. split; [exact Hk|]. split; [exact Ha|]. unfold cond_parents. apply in_map. exact Hl.
        - destruct (F2 (l_parent l)) as (w & Hw); [apply (proj1 R k Hk l Hl)|]. unfold parent_name. congruence. }
      destruct (C69_repairs_partial s hs cs fs fuel (some_values dv) e2 T St2 Gx (ex_intro _ c0 H0) Lk (HN fuel _ _ Hf)) as (c2 & H2).
      exists c2. split; [exact H2|].
      destruct (C33_sound_partial s hs cs fs fuel (some_values dv) e2 c2 T St2 Gx H2) as (d2 & Rep2 & Sh2 & V2 & AP).
      exists d2. split; [split; assumption|]. split; [exact V2|].
      (* the values [d], as stored the second time *)
      set (d3 := fun n => match d n with Some _ => e2 n | None => None end).
      assert (E02 : forall h, In h hs -> below e2 d0 (hp_name h)).
      { intros h Hh w Hw. destruct (D1 h Hh w Hw) as (w1 & Hw1 & P1). destruct (B1 h Hh w1 Hw1) as (w0 & Hw0 & P0). exists w0. split; [exact Hw0|]. apply (py_eqb_trans _ _ _ P1 P0). }
      assert (S3 : forall h, In h hs -> match d (hp_name h) with Some u => exists w, d3 (hp_name h) = Some w /\ py_eqb w u = true | None => d3 (hp_name h) = None end).
      { intros h Hh. unfold d3. destruct (d (hp_name h)) as [u|] eqn:Eu; [|reflexivity]. destruct (F2 h Hh) as (w & Hw). exists w. split; [exact Hw|].
        destruct (E02 h Hh w Hw) as (w0 & Hw0 & P). rewrite (Cd h Hh), Eu in Hw0. injection Hw0 as <-. exact P. }
      assert (U : forall h, In h hs -> below d3 d (hp_name h)).
      { intros h Hh w Hw. assert (K := S3 h Hh). destruct (d (hp_name h)) as [u|]; [|congruence]. destruct K as (w' & Hw' & P). assert (w' = w) by congruence. subst w'. eauto. }
      assert (U' : forall h, In h hs -> below d d3 (hp_name h)).
      { intros h Hh w Hw. assert (K := S3 h Hh). rewrite Hw in K. destruct K as (w' & Hw' & P). exists w'. split; [exact Hw'|]. rewrite py_eqb_sym. exact P. }
      assert (V3 : valid hs cs fs d3).
      { constructor.
        - intros h w Hh Hw. destruct (U h Hh w Hw) as (u & Hu & P). apply (legal_congr h u w); [rewrite py_eqb_sym; exact P|exact (Al h u Hh Hu)].
        - intros h Hh. assert (A := va_active _ _ _ _ V h Hh). split.
          + intros Hn. apply (active_mono hs cs fs d d3 _ R U'). apply A. intros Hd. apply Hn. unfold d3. rewrite Hd. reflexivity.
          + intros Ac. apply (active_mono hs cs fs d3 d _ R U) in Ac. apply A in Ac. destruct (d (hp_name h)) as [u|] eqn:Eu; [|congruence].
            destruct (U' h Hh u Eu) as (w & Hw & _). congruence.
        - intros f Hf' Vi. apply (va_forb _ _ _ _ V f Hf'). apply (forb_mono hs cs fs d3 d f R U Hf' Vi). }
      assert (A3 : active_part hs cs e2 d3).
      { intros h Hh. assert (A := va_active _ _ _ _ V3 h Hh). split.
        - intros K. apply A in K. unfold d3 in *. destruct (d (hp_name h)); [reflexivity|congruence].
        - intros K. destruct (d3 (hp_name h)) as [u|]; [|reflexivity]. exfalso. apply K, A. discriminate. }
      intros h Hh. rewrite <- (C33_unique s hs cs fs e2 d3 d2 B R A3 AP V3 V2 h Hh). assert (K := S3 h Hh).
      destruct (d (hp_name h)) as [u|]; [|rewrite K; exact Logic.I]. destruct K as (w & -> & P). exact P.
    Qed.
  End Values.

  (** the values as passed to Configuration *)
  Theorem C125_start_partial s hs cs fs vals d c : tame s hs cs fs -> stored hs (given vals) d -> exact_all hs (given vals) ->
    config_of_values s vals false = Ok c ->
    made s hs c /\ carries s hs c d /\ all_legal hs d /\ exact_all hs d /\ rounded hs d /\ valid hs cs fs d.
  Proof.
    intros T St Ex H. assert (B := tm_built _ _ _ _ T). assert (O := built_ok _ _ _ _ B).
    destruct (proj1 (C17_accepts_valid_partial s hs cs fs vals d T St Ex) (ex_intro _ c H)) as (_ & Al & V).
    split; [exact (made_values _ _ _ _ _ H)|]. split; [split; [apply (C20_start s hs cs fs vals d false c B St H)|apply (shows_values s hs cs fs vals false d c B H St)]|].
    split; [exact (va_legal _ _ _ _ V)|]. split; [apply (stored_exact hs _ d St Ex)|]. split; [|exact V].
    intros h w Hh Hw. rewrite (St h Hh) in Hw. destruct (given vals (hp_name h)) as [z|]; [|discriminate]. injection Hw as <-. apply round_idem.
  Qed.

  (** without clauses the strategy "default" always succeeds *)
  Theorem C125_default_partial s hs cs c d : tame s hs cs [] -> made s hs c -> carries s hs c d -> all_legal hs d -> exact_all hs d -> rounded hs d ->
    exists c', impute s c SDefault = Ok c'.
  Proof.
    intros T Md Ca Al Ex Rd. assert (O := built_ok _ _ _ _ (tm_built _ _ _ _ T)). assert (ND := so_names_nodup O).
    set (d0 := fun n => match find (fun h => String.eqb (hp_name h) n) hs with
                        | Some h => Some (match d (hp_name h) with Some w => w | None => round_value h (hp_default h) end)
                        | None => None end).
    apply (C125_succeeds_partial s hs cs [] c SDefault d d0 T Md Ca Al Ex Rd).
    - intros h Hh _. apply default_exact, (so_constructed O), Hh.
    - intros h Hh. unfold d0. destruct (find _ hs) as [g|] eqn:Ef.
      + apply find_some in Ef. destruct Ef as [Hg Hn]. apply String.eqb_eq in Hn. assert (g = h) by (apply (same_hp hs); auto). subst g. reflexivity.
      + exfalso. apply (find_none _ _ Ef) in Hh. rewrite String.eqb_refl in Hh. discriminate.
    - split; [intros h Hh _; apply default_legal, (so_constructed O), Hh|intros f []].
  Qed.
End Impute.

(** ** A configuration in which q = 0 makes b inactive *)
Section Witness.
  #[local] Existing Instance rat_env.
  #[local] Existing Instance rat_env_laws.
  Definition some_vals : list (string * option value) := [("p", Some (VStr "1")); ("q", Some (VStr "0"))]%string.
  Definition some_config := get_or (mk_config [] None false) (config_of_values g2 some_vals false).
  Lemma some_config_ok : config_of_values g2 some_vals false = Ok some_config.
  Proof. vm_compute. reflexivity. Qed.
  Definition some_stored := store [bin "p"; bin "q"; bin "b"] (given some_vals).
  Definition some_full : assignment := given [("p", Some (VStr "1")); ("q", Some (VStr "0")); ("b", Some (VStr "1"))]%string.
  Definition some_filled := get_or (mk_config [] None false) (impute g2 some_config SDefault).
  Example C125_ex : impute g2 some_config SDefault = Ok some_filled /\ getitem g2 some_config "b" = Err KeyError /\
    getitem g2 some_filled "b" = Ok (VStr "1") /\
    exists vals, dict_of g2 some_filled = Ok vals /\ exists N, forall fuel, N <= fuel -> exists c2,
      deactivate_inactive fuel g2 (Some (some_values vals)) None = Ok c2 /\
      exists d2, carries g2 [bin "p"; bin "q"; bin "b"] c2 d2 /\ d2 "b"%string = None.
  Proof.
    assert (St : stored [bin "p"; bin "q"; bin "b"] (given some_vals) some_stored) by (apply store_stored, three_nodup).
    destruct (C125_start_partial g2 _ _ _ some_vals _ _ g2_t St (three_exact _) some_config_ok) as (Md & Ca & Al & Ex & Rd & V).
    assert (I : impute g2 some_config SDefault = Ok some_filled) by (vm_compute; reflexivity).
    assert (Hb : In (bin "b") [bin "p"; bin "q"; bin "b"]) by (right; right; left; reflexivity).
    assert (Nb : getitem g2 some_config "b" = Err KeyError) by (vm_compute; reflexivity).
    split; [exact I|]. split; [exact Nb|].
    split; [exact (proj2 (C125_fills _ _ _ _ _ _ _ g2_b Md I (bin "b") Hb) Nb)|].
    assert (Cd : completed SDefault [bin "p"; bin "q"; bin "b"] some_stored some_full).
    { intros h [<-|[<-|[<-|[]]]]; vm_compute; reflexivity. }
    destruct (C125_back_partial g2 _ _ _ some_config SDefault _ some_full g2_t Md Ca Al Ex Rd (fun h Hh _ => three_exact (fun _ => Some (substitute SDefault h)) h _ Hh eq_refl) Cd
      some_filled V I) as (vals & Hv & N & H).
    exists vals. split; [exact Hv|]. exists N. intros fuel Hf. destruct (H fuel Hf) as (c2 & H2 & d2 & Ca2 & _ & Q). exists c2. split; [exact H2|].
    exists d2. split; [exact Ca2|]. specialize (Q (bin "b") Hb). change (hp_name (bin "b")) with "b"%string in Q.
    change (some_stored "b"%string) with (@None value) in Q. destruct (d2 "b"%string); [destruct Q|reflexivity].
  Qed.

  (** ** C125 is false: the default configuration can be valid but not be imputed with defaults ... *)
  Definition i_conds := [on "0" "b" "q"].
  Definition i_space := fst (add empty_space [bin "p"; bin "q"; bin "b"] i_conds [forbid "b" "1"]).
  Lemma i_built : built i_space [bin "p"; bin "q"; bin "b"] i_conds [forbid "b" "1"].
  Proof.
    apply (built_step empty_space [] [] [] [bin "p"; bin "q"; bin "b"] i_conds [forbid "b" "1"] built_empty);
      [apply Forall_cons; [apply bin_c|]; apply Forall_cons; [apply bin_c|]; apply Forall_cons; [apply bin_c|apply Forall_nil]| | |vm_compute; reflexivity].
    - apply Forall_cons; [apply on_c; vm_compute; reflexivity|apply Forall_nil].
    - apply Forall_cons; [apply forbid_c; vm_compute; reflexivity|apply Forall_nil].
  Qed.
  Lemma i_tame : tame i_space [bin "p"; bin "q"; bin "b"] i_conds [forbid "b" "1"].
  Proof.
    constructor; [exact i_built|split| | |].
    - intros c [<-|[]] l Hl. vm_compute in Hl. destruct Hl as [<-|[]]. split; vm_compute; tauto.
    - intros f [<-|[]] x Hx. vm_compute in Hx. destruct Hx as [<-|[]]. vm_compute. tauto.
    - intros c d v [<-|[]] [<-|[]] _. reflexivity.
    - intros c l w vv [<-|[]] Hl Ht. vm_compute in Hl. destruct Hl as [<-|[]]. exfalso. clear -Ht. vm_compute in Ht. discriminate Ht.
    - intros f [<-|[]] r a b Hr. exfalso. vm_compute in Hr. destruct Hr as [Hr|[]]. discriminate Hr.
  Qed.
  Theorem C125_default_refuted : exists s hs cs fs c, tame s hs cs fs /\ get_default_configuration s = Ok c /\
    check_configuration s (c_vector c) false = Ok tt /\ impute s c SDefault = Err ForbiddenValueError.
  Proof.
    exists i_space, [bin "p"; bin "q"; bin "b"], i_conds, [forbid "b" "1"],
      (get_or (mk_config [] None false) (get_default_configuration i_space)).
    split; [exact i_tame|]. split; [vm_compute; reflexivity|]. split; vm_compute; reflexivity.
  Qed.

  (** ... and a number that sets the inactive hyperparameters apart is refused *)
  Theorem C125_float_refuted : exists s hs cs fs c, tame s hs cs fs /\ config_of_values s some_vals false = Ok c /\
    forall q, impute s c (SFloat q) = Err IllegalValueError.
  Proof.
    exists g2, [bin "p"; bin "q"; bin "b"], all_conds, [], some_config. split; [exact g2_t|]. split; [exact some_config_ok|].
    intros q. vm_compute. reflexivity.
  Qed.
End Witness.
