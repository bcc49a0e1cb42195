(** * Property C127: reading dictionaries, whatever they contain *)
From Coq Require Import String List ZArith QArith Bool Lia Lqa Permutation.
From Verif Require Import Base ListFacts Numeric NumericProofs HP HPProofs Properties_HP Cond Forb EqFacts Dag DagProofs
  Space CommitProofs Spec SpaceProofs Ex Properties_Graph Serial Properties_Serial Properties_Json Dist.
Import ListNotations.
Open Scope string_scope.
Open Scope list_scope.

Section Load.
  Context {E : Env} {L : EnvLaws E}.

  (** ** What decoders return *)
  Lemma collect_in {X} (f : data -> data * res X) l : forall l' xs, collect l (map f l) = (l', Ok xs) ->
    (forall a, In a xs -> exists x, In x l /\ snd (f x) = Ok a) /\ (forall x, In x l -> exists a, snd (f x) = Ok a).
  Proof.
    induction l as [|x l IH]; intros l' xs H; simpl in H.
    - injection H as _ <-. split; intros ? [].
    - destruct (f x) as [x' [a|e]] eqn:Fx; [|discriminate]. destruct (collect l (map f l)) as [l'' [as_|e]] eqn:C; [|discriminate].
      injection H as _ <-. destruct (IH _ _ eq_refl) as [H1 H2]. split.
      + intros b [<-|Hb]; [exists x; split; [left; reflexivity|rewrite Fx; reflexivity]|].
        destruct (H1 b Hb) as (y & Hy & Q). exists y. split; [right; exact Hy|exact Q].
      + intros y [<-|Hy]; [exists a; rewrite Fx; reflexivity|apply H2, Hy].
  Qed.

  Ltac peel H := repeat match type of H with
    | bind ?r _ = Ok _ => let a := fresh "a" in let Q := fresh "Q" in destruct r as [a|] eqn:Q; [cbn [bind] in H|discriminate H]
    end.

  Lemma dec_hp_constructed x h : snd (dec_hp x) = Ok h -> constructed h.
  Proof.
    destruct x as [v|l|d]; try discriminate. unfold dec_hp. destruct (assoc "type" d) as [[[ty| | | |]| |]|]; try discriminate.
    unfold hp_decoder.
    destruct (ty =? "uniform_float"); [cbn [snd]; unfold dec_uniform; intros H; peel H; exact (CtorUFloat _ _ _ _ _ _ _ H)|].
    destruct (ty =? "uniform_int"); [cbn [snd]; unfold dec_uniform; intros H; peel H; exact (CtorUInt _ _ _ _ _ _ _ H)|].
    destruct (ty =? "normal_int"); [cbn [snd]; unfold dec_shaped; intros H; peel H; exact (CtorNInt _ _ _ _ _ _ _ _ _ H)|].
    destruct (ty =? "normal_float"); [cbn [snd]; unfold dec_shaped; intros H; peel H; exact (CtorNFloat _ _ _ _ _ _ _ _ _ H)|].
    destruct (ty =? "beta_int"); [cbn [snd]; unfold dec_shaped; intros H; peel H; exact (CtorBInt _ _ _ _ _ _ _ _ _ H)|].
    destruct (ty =? "beta_float"); [cbn [snd]; unfold dec_shaped; intros H; peel H; exact (CtorBFloat _ _ _ _ _ _ _ _ _ H)|].
    destruct (ty =? "categorical"); [cbn [snd]; unfold dec_categorical; intros H; peel H; exact (CtorCat _ _ _ _ _ _ H)|].
    destruct (ty =? "ordinal"); [cbn [snd]; unfold dec_ordinal; intros H; peel H; exact (CtorOrd _ _ _ _ _ H)|].
    destruct (ty =? "constant"); [cbn [snd]; unfold dec_constant; intros H; peel H; exact (CtorConst _ _ _ _ H)|discriminate].
  Qed.

  (** the space finds only proper hyperparameters of [hs] *)
  Definition knows (s : space) (hs : list hp) : Prop := forall n h, get_hp s n = Some h -> In h hs /\ constructed h.

  Lemma hp_ref_knows s hs k d h : knows s hs -> hp_ref s k d = Ok h -> In h hs /\ constructed h.
  Proof.
    intros K. unfold hp_ref. destruct (assoc k d) as [[[n| | | |]| |]|]; try discriminate.
    destruct (get_hp s n) as [h'|] eqn:G; [|discriminate]. intros [= <-]. exact (K _ _ G).
  Qed.

  Lemma mk_bin_refs hs o ch p v c : mk_bin o ch p v = Ok c -> In ch hs -> In p hs -> cond_refs hs c.
  Proof.
    unfold mk_bin. repeat match goal with |- context [if ?b then _ else Err _] => destruct b; [|discriminate] end.
    destruct (to_vector p v); [|discriminate]. intros [= <-] A B l [<-|[]]. split; assumption.
  Qed.
  Lemma mk_in_refs hs ch p vs c : mk_in ch p vs = Ok c -> In ch hs -> In p hs -> cond_refs hs c.
  Proof.
    unfold mk_in. repeat match goal with |- context [if ?b then _ else Err _] => destruct b; [|discriminate] end.
    destruct (mapM _ vs); [|discriminate]. intros [= <-] A B l [<-|[]]. split; assumption.
  Qed.
  Lemma dec_bin_good s hs o d c : knows s hs -> dec_bin s o d = Ok c -> cond_built c /\ cond_refs hs c.
  Proof.
    intros K H. unfold dec_bin in H. peel H. destruct (hp_ref_knows _ _ _ _ _ K Q). destruct (hp_ref_knows _ _ _ _ _ K Q0).
    split; [eapply CB_bin; [| |exact H]; assumption|eapply mk_bin_refs; eassumption].
  Qed.
  Lemma dec_in_good s hs d c : knows s hs -> dec_in s d = Ok c -> cond_built c /\ cond_refs hs c.
  Proof.
    intros K H. unfold dec_in in H. peel H. destruct (hp_ref_knows _ _ _ _ _ K Q). destruct (hp_ref_knows _ _ _ _ _ K Q0).
    split; [eapply CB_in; [| |exact H]; assumption|eapply mk_in_refs; eassumption].
  Qed.

  (** the list that a conjunction decodes is one of the lists of the dictionary *)
  Lemma subs_assoc {X} (f : data -> data * res X) k d : forall l r,
    assoc k (map (fun e : string * data => match e with (k, DList l) => (k, (l, map f l)) | (k, _) => (k, ([], [])) end) d) = Some (l, r) ->
    (r = map f l /\ (l = [] \/ In (k, DList l) d)).
  Proof.
    induction d as [|[n x] d IH]; intros l r; [discriminate|]. cbn [map assoc]. destruct x as [v|m|ps]; cbn [assoc]; (destruct (k =? n) eqn:Q).
    - intros [= <- <-]. auto.
    - intros H. destruct (IH _ _ H) as [A [B|B]]; (split; [exact A|]); [left; exact B|right; right; exact B].
    - intros [= <- <-]. apply String.eqb_eq in Q. subst. split; [reflexivity|]. right. left. reflexivity.
    - intros H. destruct (IH _ _ H) as [A [B|B]]; (split; [exact A|]); [left; exact B|right; right; exact B].
    - intros [= <- <-]. auto.
    - intros H. destruct (IH _ _ H) as [A [B|B]]; (split; [exact A|]); [left; exact B|right; right; exact B].
  Qed.
  Lemma dec_conj_in {X} (f : data -> data * res X) (mk : list X -> res X) k d d' a :
    snd (dec_conj mk k (match assoc k (map (fun e : string * data => match e with (k, DList l) => (k, (l, map f l)) | (k, _) => (k, ([], [])) end) d) with
                        | Some r => r | None => ([], []) end) d') = Ok a ->
    exists xs, mk xs = Ok a /\ forall b, In b xs -> exists l x, In (k, DList l) d /\ In x l /\ snd (f x) = Ok b.
  Proof.
    unfold dec_conj. destruct (assoc k d') as [[v|m|ps]|]; try discriminate.
    destruct (assoc k (map _ d)) as [[l r]|] eqn:A.
    - apply subs_assoc in A. destruct A as [-> B]. cbn [fst snd]. destruct (collect l (map f l)) as [l'' [xs|e]] eqn:C; [|discriminate].
      cbn [snd bind]. intros H. exists xs. split; [exact H|]. intros b Hb. destruct (proj1 (collect_in f l _ _ C) b Hb) as (x & Hx & Q).
      destruct B as [->|B]; [destruct Hx|]. exists l, x. auto.
    - cbn. intros H. exists []. split; [exact H|]. intros b [].
  Qed.

  Lemma mk_and_refs hs cs c : mk_and cs = Ok c -> (forall x, In x cs -> cond_refs hs x) -> cond_refs hs c.
  Proof.
    unfold mk_and. repeat match goal with |- context [if ?b then _ else Err _] => destruct b; [|discriminate] end. intros [= <-] R l Hl.
    cbn [dlcs] in Hl. apply in_concat in Hl. destruct Hl as (m & Hm & Hl). apply in_map_iff in Hm. destruct Hm as (x & <- & Hx). exact (R x Hx l Hl).
  Qed.
  Lemma mk_or_refs hs cs c : mk_or cs = Ok c -> (forall x, In x cs -> cond_refs hs x) -> cond_refs hs c.
  Proof.
    unfold mk_or. repeat match goal with |- context [if ?b then _ else Err _] => destruct b; [|discriminate] end. intros [= <-] R l Hl.
    cbn [dlcs] in Hl. apply in_concat in Hl. destruct Hl as (m & Hm & Hl). apply in_map_iff in Hm. destruct Hm as (x & <- & Hx). exact (R x Hx l Hl).
  Qed.

  Lemma dec_cond_good s hs : knows s hs -> forall x,
    (forall c, snd (dec_cond s x) = Ok c -> cond_built c /\ cond_refs hs c) /\
    (forall l, x = DList l -> Forall (fun y => forall c, snd (dec_cond s y) = Ok c -> cond_built c /\ cond_refs hs c) l).
  Proof.
    intros K x. induction x as [v|l IH|d IH] using data_ind2.
    - split; [discriminate|]. intros l Hl. discriminate Hl.
    - split; [discriminate|]. intros l' [= <-]. rewrite Forall_forall in *. intros y Hy. apply (IH y Hy).
    - split; [|intros l Hl; discriminate Hl]. rewrite Forall_forall in IH.
      assert (G : forall l y c, In ("conditions", DList l) d -> In y l -> snd (dec_cond s y) = Ok c -> cond_built c /\ cond_refs hs c).
      { intros l y c Hl Hy. assert (F := proj2 (IH _ Hl) l eq_refl). rewrite Forall_forall in F. exact (F y Hy c). }
      intros c. cbn [dec_cond]. destruct (assoc "type" d) as [[[ty| | | |]| |]|]; try discriminate.
      do 4 (match goal with |- context [if (ty =? ?t) then _ else _] => destruct (ty =? t) end; [intros H; eapply dec_bin_good; [exact K|exact H]|]).
      match goal with |- context [if (ty =? ?t) then _ else _] => destruct (ty =? t) end; [intros H; eapply dec_in_good; [exact K|exact H]|].
      match goal with |- context [if (ty =? ?t) then _ else _] => destruct (ty =? t) end; [|match goal with |- context [if (ty =? ?t) then _ else _] => destruct (ty =? t) end; [|discriminate]];
        intros H; apply dec_conj_in in H; destruct H as (xs & H & Hx).
      + assert (G' : forall b, In b xs -> cond_built b /\ cond_refs hs b).
        { intros b Hb. destruct (Hx b Hb) as (l & y & Hl & Hy & Q). exact (G l y b Hl Hy Q). }
        split; [apply (CB_and xs); [intros b Hb; apply G', Hb|exact H]|apply (mk_and_refs hs xs); [exact H|intros b Hb; apply G', Hb]].
      + assert (G' : forall b, In b xs -> cond_built b /\ cond_refs hs b).
        { intros b Hb. destruct (Hx b Hb) as (l & y & Hl & Hy & Q). exact (G l y b Hl Hy Q). }
        split; [apply (CB_or xs); [intros b Hb; apply G', Hb|exact H]|apply (mk_or_refs hs xs); [exact H|intros b Hb; apply G', Hb]].
  Qed.

  Lemma dec_frel_good s hs r d f : knows s hs -> dec_frel s r d = Ok f -> forb_built f /\ forb_refs hs f.
  Proof.
    intros K H. unfold dec_frel in H. peel H. destruct (hp_ref_knows _ _ _ _ _ K Q). destruct (hp_ref_knows _ _ _ _ _ K Q0).
    split; [eapply FB_rel; [| |exact H]; assumption|]. injection H as <-. intros h [<-|[<-|[]]]; assumption.
  Qed.
  Lemma dec_forb_good s hs : knows s hs -> forall x,
    (forall f, snd (dec_forb s x) = Ok f -> forb_built f /\ forb_refs hs f) /\
    (forall l, x = DList l -> Forall (fun y => forall f, snd (dec_forb s y) = Ok f -> forb_built f /\ forb_refs hs f) l).
  Proof.
    intros K x. induction x as [v|l IH|d IH] using data_ind2.
    - split; [discriminate|]. intros l Hl. discriminate Hl.
    - split; [discriminate|]. intros l' [= <-]. rewrite Forall_forall in *. intros y Hy. apply (IH y Hy).
    - split; [|intros l Hl; discriminate Hl]. rewrite Forall_forall in IH.
      assert (G : forall l y c, In ("clauses", DList l) d -> In y l -> snd (dec_forb s y) = Ok c -> forb_built c /\ forb_refs hs c).
      { intros l y c Hl Hy. assert (F := proj2 (IH _ Hl) l eq_refl). rewrite Forall_forall in F. exact (F y Hy c). }
      intros f. cbn [dec_forb]. destruct (assoc "type" d) as [[[ty| | | |]| |]|]; try discriminate.
      match goal with |- context [if (ty =? ?t) then _ else _] => destruct (ty =? t) end.
      { intros H. cbn [snd] in H. unfold dec_feq in H. peel H. destruct (hp_ref_knows _ _ _ _ _ K Q). split; [eapply FB_eq; eassumption|].
        unfold mk_feq in H. destruct (legal_value _ _); [|discriminate]. destruct (to_vector _ _); [|discriminate]. injection H as <-. intros h [<-|[]]. assumption. }
      match goal with |- context [if (ty =? ?t) then _ else _] => destruct (ty =? t) end.
      { intros H. cbn [snd] in H. unfold dec_fin in H. peel H. destruct (hp_ref_knows _ _ _ _ _ K Q). split; [eapply FB_in; eassumption|].
        unfold mk_fin in H. destruct (forallb _ _); [|discriminate]. destruct (mapM _ _); [|discriminate]. injection H as <-. intros h [<-|[]]. assumption. }
      match goal with |- context [if (ty =? ?t) then _ else _] => destruct (ty =? t) end.
      { intros H. apply dec_conj_in in H. destruct H as (xs & H & Hx).
        assert (G' : forall b, In b xs -> forb_built b /\ forb_refs hs b).
        { intros b Hb. destruct (Hx b Hb) as (l & y & Hl & Hy & Q). exact (G l y b Hl Hy Q). }
        split; [apply (FB_and xs); [intros b Hb; apply G', Hb|exact H]|]. injection H as <-. intros h Hh.
        unfold forb_hps in Hh. cbn [fdlcs] in Hh. apply in_concat in Hh. destruct Hh as (m & Hm & Hh). apply in_map_iff in Hm. destruct Hm as (g & <- & Hg).
        apply in_concat in Hg. destruct Hg as (m & Hm & Hg). apply in_map_iff in Hm. destruct Hm as (b & <- & Hb). apply (proj2 (G' b Hb)).
        unfold forb_hps. apply in_concat. exists (leaf_hps g). split; [apply in_map, Hg|exact Hh]. }
      do 3 (match goal with |- context [if (ty =? ?t) then _ else _] => destruct (ty =? t) end; [intros H; eapply dec_frel_good; [exact K|exact H]|]).
      match goal with |- context [if (ty =? ?t) then _ else _] => destruct (ty =? t) end; [|discriminate].
      cbn [snd]. unfold dec_legacy. destruct (assoc "lambda" _) as [[[l| | | |]| |]|]; try discriminate.
      do 3 (match goal with |- context [if (l =? ?t) then _ else _] => destruct (l =? t) end; [intros H; eapply dec_frel_good; [exact K|exact H]|]). discriminate.
  Qed.

  (** ** Whatever dictionary is read, the result is a space that the API could have built, all of whose
      conditions and clauses are about hyperparameters of the space *)
  Lemma load_built d d' x : from_serialized d = (d', Ok x) ->
    exists b hs cs fs, clauses_once b x hs cs fs /\ refs hs cs fs /\ c_meta x = None.
  Proof.
    unfold from_serialized. destruct (get_name d) as [name|]; [|discriminate]. destruct (get_list "hyperparameters" d) as [lh|]; [|discriminate].
    destruct (get_list "conditions" d) as [lc|]; [|discriminate]. destruct (get_list "forbiddens" d) as [lf|]; [|discriminate].
    destruct (collect lh (map dec_hp lh)) as [lh' [hs|e]] eqn:C1; [|discriminate].
    destruct (c_add (new_space name None) hs [] []) as [x1 [[]|e]] eqn:A1; [|discriminate].
    destruct (collect lc (map (dec_cond (c_space x1)) lc)) as [lc' [cs|e]] eqn:C2; [|discriminate].
    destruct (collect lf (map (dec_forb (c_space x1)) lf)) as [lf' [fs|e]] eqn:C3; [|discriminate].
    destruct (c_add x1 [] cs fs) as [x2 [[]|e]] eqn:A2; [|discriminate]. intros [= _ <-].
    assert (F1 : Forall constructed hs).
    { rewrite Forall_forall. intros h Hh. destruct (proj1 (collect_in _ _ _ _ C1) h Hh) as (y & _ & Q). exact (dec_hp_constructed y h Q). }
    assert (O1 := once_plain false (new_space name None) [] [] [] x1 hs [] (once_new _ _) F1 (Forall_nil _) A1). simpl in O1.
    assert (K : knows (c_space x1) hs).
    { intros n h H. apply (so_get_hp (built_ok _ _ _ _ (cbuilt_built _ _ _ _ (once_cbuilt _ _ _ _ _ O1)))) in H. destruct H as [H _].
      split; [exact H|]. rewrite Forall_forall in F1. exact (F1 h H). }
    assert (G2 : forall c, In c cs -> cond_built c /\ cond_refs hs c).
    { intros c Hc. destruct (proj1 (collect_in _ _ _ _ C2) c Hc) as (y & _ & Q). exact (proj1 (dec_cond_good _ hs K y) c Q). }
    assert (G3 : forall f, In f fs -> forb_built f /\ forb_refs hs f).
    { intros f Hf. destruct (proj1 (collect_in _ _ _ _ C3) f Hf) as (y & _ & Q). exact (proj1 (dec_forb_good _ hs K y) f Q). }
    exists true, (hs ++ []), ([] ++ cs), fs. split; [|split].
    - apply (once_clauses x1 hs [] x2 [] cs fs O1 (Forall_nil _)); [| |exact A2].
      + rewrite Forall_forall. intros c Hc. apply G2, Hc.
      + rewrite Forall_forall. intros f Hf. apply G3, Hf.
    - rewrite app_nil_r. split; [intros c Hc; apply G2, Hc|intros f Hf; apply G3, Hf].
    - destruct (c_add_add _ _ _ _ _ _ A2) as (_ & _ & ->). destruct (c_add_add _ _ _ _ _ _ A1) as (_ & _ & ->). reflexivity.
  Qed.

  Theorem C127_built d d' x : from_serialized d = (d', Ok x) -> exists hs cs fs, cbuilt x hs cs fs /\ refs hs cs fs.
  Proof. intros H. destruct (load_built d d' x H) as (b & hs & cs & fs & C & R & _). exists hs, cs, fs. split; [exact (once_cbuilt _ _ _ _ _ C)|exact R]. Qed.

  (** ** A space that was read is written and read again without loss *)
  Lemma back_mean h k : snd (dec_hp (enc_hp h)) = Ok k -> mean_survives h.
  Proof.
    unfold mean_survives. destruct h as [n kd df m]. cbn [hp_kind]. destruct kd as [| | | |lo hi [|] [|mu sg|]]; try (intros _; exact Logic.I).
    intros H. destruct (Qlt_le_dec 0 mu) as [P|P]; [exact P|]. exfalso.
    assert (Q : snd (dec_hp (enc_hp (mk_hp n (KFloat lo hi true (DNormal mu sg)) df m))) =
      dec_shaped "mu" "sigma" mk_normal_float (shaped_items "mu" "sigma" n mu sg (VFloat lo) (VFloat hi) (VFloat (match num_of df with Some q => q | None => 0%Q end)) true m)) by reflexivity.
    rewrite Q in H. rewrite (dec_normal_items _ _ _ _ _ _ _ _ _ lo hi (match num_of df with Some q => q | None => 0%Q end)) in H by reflexivity.
    unfold mk_normal_float in H. apply Qle_bool_iff in P. rewrite P in H. discriminate H.
  Qed.
  Lemma trip_means x y : round_trip x = Ok y -> forall h, In h (Space.hps (c_space x)) -> mean_survives h.
  Proof.
    unfold round_trip, from_serialized, to_serialized. intros H h Hh.
    replace (get_name _) with (Ok (c_name x)) in H by (unfold get_name; cbn; destruct (c_name x); reflexivity).
    replace (get_list "hyperparameters" _) with (Ok (map enc_hp (Space.hps (c_space x)))) in H by reflexivity.
    replace (get_list "conditions" _) with (Ok (map enc_cond (conditions (c_space x)))) in H by reflexivity.
    replace (get_list "forbiddens" _) with (Ok (map enc_forb (forbidden_clauses (c_space x)))) in H by reflexivity.
    destruct (collect (map enc_hp _) (map dec_hp _)) as [lh' [hs|e]] eqn:C; [|discriminate H].
    destruct (proj2 (collect_in _ _ _ _ C) (enc_hp h)) as (k & Q); [apply in_map, Hh|]. exact (back_mean h k Q).
  Qed.

  Theorem C127_again_partial d d' x y : from_serialized d = (d', Ok x) -> distinct_strings (c_space x) -> round_trip x = Ok y ->
    to_serialized y = to_serialized x.
  Proof.
    intros H U Rt. destruct (load_built d d' x H) as (b & hs & cs & fs & C & R & _). assert (CB := once_cbuilt _ _ _ _ _ C).
    assert (O := built_ok _ _ _ _ (cbuilt_built _ _ _ _ CB)).
    assert (MS : forall h, In h hs -> mean_survives h).
    { intros h Hh. apply (trip_means x y Rt). apply (Permutation_in _ (Permutation_sym (so_hps O)) Hh). }
    destruct (C52_same_partial x hs cs fs y CB R MS U Rt) as (Q1 & Q2 & _ & Q4 & Q5 & _).
    unfold to_serialized, Space.hps. rewrite Q1, Q2, Q4, Q5. reflexivity.
  Qed.
  Theorem C127_equal_partial d d' x y : from_serialized d = (d', Ok x) -> distinct_strings (c_space x) ->
    NoDup (map forb_str (forbidden_clauses (c_space x))) -> round_trip x = Ok y -> cspace_eqb y x = true.
  Proof.
    intros H U N Rt. destruct (load_built d d' x H) as (b & hs & cs & fs & C & R & Mt). assert (CB := once_cbuilt _ _ _ _ _ C).
    assert (O := built_ok _ _ _ _ (cbuilt_built _ _ _ _ CB)).
    apply (C52_equal_partial b x hs cs fs y C R); [|exact U| |exact Mt|exact Rt].
    - intros h Hh. apply (trip_means x y Rt). apply (Permutation_in _ (Permutation_sym (so_hps O)) Hh).
    - apply (Permutation_NoDup (l := map forb_str (forbidden_clauses (c_space x)))); [|exact N]. apply Permutation_map. apply (di_forb _ _ _ _ (so_inv _ _ _ _ O)).
  Qed.

  (** ** The order of the keys of an item does not matter *)
  Lemma filter_perm {A} (f : A -> bool) l l' : Permutation l l' -> Permutation (filter f l) (filter f l').
  Proof.
    induction 1 as [|x l l' _ IH|x y l|l l' l'' _ IH _ IH']; simpl; [constructor| | |eapply Permutation_trans; eassumption].
    - destruct (f x); [constructor; exact IH|exact IH].
    - destruct (f x), (f y); try constructor; try reflexivity.
  Qed.
  Lemma forallb_perm {A} (f : A -> bool) l l' : Permutation l l' -> forallb f l = forallb f l'.
  Proof.
    intros P. apply eq_true_iff_eq. rewrite !forallb_forall. split; intros H x Hx; apply H.
    - apply (Permutation_in _ (Permutation_sym P) Hx).
    - apply (Permutation_in _ P Hx).
  Qed.
  Lemma dremove_keys k d : NoDup (map fst d) -> NoDup (map fst (dremove k d)).
  Proof.
    unfold dremove. induction d as [|[n x] d IH]; simpl; [constructor|]. intros N. inversion N as [|? ? Hn N']; subst.
    destruct (negb _); [|auto]. simpl. constructor; [|auto]. intros H. apply Hn. apply in_map_iff in H. destruct H as ((m & z) & <- & Hm).
    apply filter_In in Hm. apply in_map_iff. exists (m, z). split; [reflexivity|apply Hm].
  Qed.

  (** items with the same entries: no key twice and each key with the same entry *)
  Definition same_items (d d' : dict_t) : Prop :=
    (forall k, assoc k d = assoc k d') /\ (forall k, In k (map fst d) <-> In k (map fst d')).
  Lemma perm_same d d' : NoDup (map fst d) -> Permutation d d' -> same_items d d'.
  Proof.
    intros N P. split; [intros k; apply assoc_perm; assumption|]. intros k. assert (Q := Permutation_map fst P).
    split; intros H; [apply (Permutation_in _ Q H)|apply (Permutation_in _ (Permutation_sym Q) H)].
  Qed.
  Lemma forallb_keys (f : string -> bool) l l' : (forall k, In k l <-> In k l') -> forallb f l = forallb f l'.
  Proof. intros P. apply eq_true_iff_eq. rewrite !forallb_forall. split; intros H x Hx; apply H, P, Hx. Qed.
  Lemma assoc_dremove k n d : assoc k (dremove n d) = if k =? n then None else assoc k d.
  Proof.
    induction d as [|[m x] d IH]; [destruct (k =? n); reflexivity|]. unfold dremove in *. cbn [filter fst]. destruct (m =? n) eqn:Q.
    - cbn [negb]. rewrite IH. apply String.eqb_eq in Q. subst. cbn [assoc]. destruct (k =? n); reflexivity.
    - cbn [negb assoc]. rewrite IH. destruct (k =? m) eqn:R; [|reflexivity]. apply String.eqb_eq in R. subst. rewrite Q. reflexivity.
  Qed.
  Lemma keys_dremove k n d : In k (map fst (dremove n d)) <-> In k (map fst d) /\ k <> n.
  Proof.
    unfold dremove. rewrite !in_map_iff. split.
    - intros ((m & x) & <- & H). apply filter_In in H. destruct H as [H Q]. split; [exists (m, x); auto|]. cbn in *. apply negb_true_iff, String.eqb_neq in Q. exact Q.
    - intros [((m & x) & <- & H) Q]. exists (m, x). split; [reflexivity|]. apply filter_In. split; [exact H|]. cbn in *. apply negb_true_iff, String.eqb_neq. exact Q.
  Qed.
  Lemma same_dremove n d d' : same_items d d' -> same_items (dremove n d) (dremove n d').
  Proof. intros [A B]. split; intros k; [rewrite !assoc_dremove, A; reflexivity|]. rewrite !keys_dremove, B. reflexivity. Qed.
  Lemma same_set n x d d' : same_items d d' -> same_items (assoc_set n x d) (assoc_set n x d').
  Proof.
    intros [A B]. split; intros k.
    - destruct (string_dec k n) as [->|Q]; [rewrite !assoc_set_same; reflexivity|]. rewrite !assoc_set_other by congruence. apply A.
    - rewrite !assoc_set_In_keys, B. reflexivity.
  Qed.
  Lemma same_compat d d' : same_items d d' -> same_items (backwards_compat d) (backwards_compat d').
  Proof.
    intros S. unfold backwards_compat. assert (S1 := same_dremove "q" _ _ S). rewrite (proj1 S1 "default").
    destruct (assoc "default" (dremove "q" d')) as [x|]; [|exact S1]. destruct (is_none x); [apply same_dremove, S1|apply same_set, same_dremove, S1].
  Qed.
  Lemma same_mem k d d' : same_items d d' -> assoc_mem k d = assoc_mem k d'.
  Proof. intros [A _]. unfold assoc_mem. rewrite A. reflexivity. Qed.
  Lemma same_kw r o d d' : same_items d d' -> kw_check r o d = kw_check r o d'.
  Proof.
    intros S. unfold kw_check. rewrite (forallb_keys _ _ _ (proj2 S)).
    replace (forallb (fun k => assoc_mem k d) r) with (forallb (fun k => assoc_mem k d') r); [reflexivity|].
    induction r as [|k r IH]; [reflexivity|]. simpl. rewrite IH, (same_mem k _ _ S). reflexivity.
  Qed.
  Lemma same_decoder ty f d d' : hp_decoder ty = Some f -> same_items d d' -> f d = f d'.
  Proof.
    intros H S. assert (A := proj1 S). unfold hp_decoder in H.
    repeat match type of H with (if ?b then Some _ else _) = _ => destruct b; [injection H as <-|] end; try discriminate H;
      unfold dec_uniform, dec_shaped, dec_categorical, dec_ordinal, dec_constant, arg_str, arg_num, arg_opt_num, arg_bool, arg_meta, arg_values, arg_opt_value, arg_weights, arg_value;
      rewrite (same_kw _ _ _ _ S), !A; reflexivity.
  Qed.
  Lemma same_dec d d' : same_items d d' -> snd (dec_hp (DDict d)) = snd (dec_hp (DDict d')).
  Proof.
    intros S. unfold dec_hp. rewrite (proj1 S "type"). destruct (assoc "type" d') as [[[ty| | | |]| |]|]; try reflexivity.
    destruct (hp_decoder ty) as [f|] eqn:D; [|reflexivity]. cbn [snd]. apply (same_decoder ty f _ _ D). unfold hp_compat.
    assert (S1 := same_compat _ _ (same_dremove "type" _ _ S)). destruct (ty =? "categorical"); [apply same_dremove, S1|exact S1].
  Qed.
  Theorem C127_order d d' : NoDup (map fst d) -> Permutation d d' -> snd (dec_hp (DDict d)) = snd (dec_hp (DDict d')).
  Proof. intros N P. apply same_dec, perm_same; assumption. Qed.

  (** ** Items that older versions wrote *)

  (** the key default instead of default_value *)
  Lemma absent k (d : dict_t) : ~ In k (map fst d) -> assoc k d = None.
  Proof.
    induction d as [|[n x] d IH]; [reflexivity|]. cbn [map fst In assoc]. intros H. destruct (k =? n) eqn:Q; [apply String.eqb_eq in Q; subst; elim H; auto|apply IH; tauto].
  Qed.
  Lemma dremove_absent k d : ~ In k (map fst d) -> dremove k d = d.
  Proof.
    unfold dremove. induction d as [|[n x] d IH]; [reflexivity|]. cbn [map fst In filter]. intros H. destruct (n =? k) eqn:Q; [apply String.eqb_eq in Q; subst; elim H; auto|].
    cbn [negb]. rewrite IH by tauto. reflexivity.
  Qed.
  (** what reading makes of an item depends on its kind and on the entries that are left after the old
      keys have been replaced *)
  Lemma dec_after d d' : assoc "type" d = assoc "type" d' -> (forall t, same_items (hp_compat t (dremove "type" d)) (hp_compat t (dremove "type" d'))) ->
    snd (dec_hp (DDict d)) = snd (dec_hp (DDict d')).
  Proof.
    intros T S. unfold dec_hp. rewrite T. destruct (assoc "type" d') as [[[ty| | | |]| |]|]; try reflexivity.
    destruct (hp_decoder ty) as [f|] eqn:D; [|reflexivity]. cbn [snd]. apply (same_decoder ty f _ _ D), S.
  Qed.
  Lemma dremove_cons k n x d : dremove k ((n, x) :: d) = if n =? k then dremove k d else (n, x) :: dremove k d.
  Proof. unfold dremove. cbn [filter fst]. destruct (n =? k); reflexivity. Qed.
  Lemma same_refl d : same_items d d.
  Proof. split; reflexivity. Qed.
  Lemma compat_same t d d' : same_items (backwards_compat d) (backwards_compat d') -> same_items (hp_compat t d) (hp_compat t d').
  Proof. intros S. unfold hp_compat. destruct (t =? "categorical"); [apply same_dremove, S|exact S]. Qed.
  Lemma set_front n x (d : dict_t) : ~ In n (map fst d) -> same_items (assoc_set n x d) ((n, x) :: d).
  Proof.
    intros H. rewrite (assoc_set_new n x d H). split; intros k.
    - cbn [assoc]. destruct (k =? n) eqn:Q.
      + apply String.eqb_eq in Q. subst. clear - H. induction d as [|[m y] d IH]; cbn; [rewrite String.eqb_refl; reflexivity|]. cbn in H.
        destruct (n =? m) eqn:Q; [apply String.eqb_eq in Q; subst; tauto|apply IH; tauto].
      + clear H. induction d as [|[m y] d IH]; cbn; [rewrite Q; reflexivity|]. destruct (k =? m); [reflexivity|exact IH].
    - rewrite map_app, in_app_iff. cbn. tauto.
  Qed.

  Theorem C127_default v d : is_none v = false -> ~ In "default_value" (map fst d) -> ~ In "default" (map fst d) ->
    snd (dec_hp (DDict (("default", v) :: d))) = snd (dec_hp (DDict (("default_value", v) :: d))).
  Proof.
    intros Nv N1 N2. apply dec_after; [reflexivity|]. intros t. apply compat_same. rewrite !dremove_cons. cbn [String.eqb].
    change (Ascii.eqb _ _) with false. cbv iota. set (e := dremove "type" d).
    assert (M1 : ~ In "default_value" (map fst (dremove "q" e))) by (unfold e; rewrite !keys_dremove; tauto).
    assert (M2 : ~ In "default" (map fst (dremove "q" e))) by (unfold e; rewrite !keys_dremove; tauto).
    unfold backwards_compat. rewrite !dremove_cons. change ("default" =? "q") with false. change ("default_value" =? "q") with false. cbv iota.
    cbn [assoc]. change ("default" =? "default") with true. change ("default" =? "default_value") with false. cbv iota. rewrite Nv, (absent _ _ M2).
    rewrite dremove_cons. change ("default" =? "default") with true. cbv iota. rewrite (dremove_absent _ _ M2). apply set_front, M1.
  Qed.
  (** the key default with the entry None is as if it was not there *)
  Theorem C127_none d : ~ In "default" (map fst d) -> snd (dec_hp (DDict (("default", DVal VNone) :: d))) = snd (dec_hp (DDict d)).
  Proof.
    intros N. apply dec_after; [reflexivity|]. intros t. apply compat_same. rewrite !dremove_cons. change ("default" =? "type") with false. cbv iota.
    set (e := dremove "type" d). assert (M : ~ In "default" (map fst (dremove "q" e))) by (unfold e; rewrite !keys_dremove; tauto).
    unfold backwards_compat. rewrite dremove_cons. change ("default" =? "q") with false. cbv iota. cbn [assoc]. change ("default" =? "default") with true. cbv iota.
    cbn [is_none]. rewrite (absent _ _ M), dremove_cons. change ("default" =? "default") with true. cbv iota. rewrite (dremove_absent _ _ M). apply same_refl.
  Qed.
  (** the key q is ignored *)
  Theorem C127_q y d : snd (dec_hp (DDict (("q", y) :: d))) = snd (dec_hp (DDict d)).
  Proof.
    apply dec_after; [reflexivity|]. intros t. apply compat_same. rewrite dremove_cons. change ("q" =? "type") with false. cbv iota.
    unfold backwards_compat. rewrite dremove_cons. change ("q" =? "q") with true. apply same_refl.
  Qed.
  (** so is the key probabilities of categorical hyperparameters *)
  Theorem C127_probabilities y d : assoc "type" d = Some (DVal (VStr "categorical")) ->
    snd (dec_hp (DDict (("probabilities", y) :: d))) = snd (dec_hp (DDict d)).
  Proof.
    intros T. unfold dec_hp. cbn [assoc]. change ("type" =? "probabilities") with false. cbv iota. rewrite T. cbn [hp_decoder].
    change (hp_decoder "categorical") with (Some dec_categorical). cbv iota. cbn [snd].
    apply (same_decoder "categorical" dec_categorical); [reflexivity|]. unfold hp_compat. change ("categorical" =? "categorical") with true. cbv iota.
    rewrite dremove_cons. change ("probabilities" =? "type") with false. cbv iota. unfold backwards_compat. rewrite dremove_cons.
    change ("probabilities" =? "q") with false. cbv iota. cbn [assoc]. change ("default" =? "probabilities") with false. cbv iota.
    set (e := dremove "q" (dremove "type" d)). destruct (assoc "default" e) as [x|].
    - destruct (is_none x); rewrite dremove_cons; change ("probabilities" =? "default") with false; cbv iota.
      + rewrite dremove_cons. change ("probabilities" =? "probabilities") with true. apply same_refl.
      + cbn [assoc_set]. change ("default_value" =? "probabilities") with false. cbv iota. rewrite dremove_cons.
        change ("probabilities" =? "probabilities") with true. apply same_refl.
    - rewrite dremove_cons. change ("probabilities" =? "probabilities") with true. apply same_refl.
  Qed.
  (** a relation written with its comparison under lambda *)
  Definition rel_code (r : rel) : string := match r with RLess => "LT" | REquals => "EQ" | RGreater => "GT" end.
  Theorem C127_relation s r a b : snd (dec_forb s (DDict [("left", a); ("right", b); ("type", dstr "RELATION"); ("lambda", dstr (rel_code r))])) =
    snd (dec_forb s (DDict [("left", a); ("right", b); ("type", dstr ("RELATION_" ++ rel_code r))])).
  Proof. destruct r; reflexivity. Qed.

  (** ** The order of keys does not matter anywhere in the dictionary *)

  (** the same data, with the keys of each dictionary in some other order *)
  Inductive reordered : data -> data -> Prop :=
  | ro_val v : reordered (DVal v) (DVal v)
  | ro_list l l' : Forall2 reordered l l' -> reordered (DList l) (DList l')
  | ro_dict d d' : (forall k, In k (map fst d) <-> In k (map fst d')) ->
      (forall k x x', assoc k d = Some x -> assoc k d' = Some x' -> reordered x x') -> reordered (DDict d) (DDict d').

  Definition alike_items (d d' : dict_t) : Prop :=
    (forall k, In k (map fst d) <-> In k (map fst d')) /\ (forall k x x', assoc k d = Some x -> assoc k d' = Some x' -> reordered x x').
  Lemma key_found k (d : dict_t) : In k (map fst d) -> exists x, assoc k d = Some x.
  Proof.
    induction d as [|[n x] d IH]; [intros []|]. cbn [map fst In assoc]. intros H. destruct (k =? n) eqn:Q; [eauto|].
    apply IH. destruct H as [H|H]; [subst; rewrite String.eqb_refl in Q; discriminate|exact H].
  Qed.
  Lemma found_key k (d : dict_t) x : assoc k d = Some x -> In k (map fst d).
  Proof. intros H. destruct (in_dec string_dec k (map fst d)) as [I|I]; [exact I|]. rewrite (absent _ _ I) in H. discriminate. Qed.
  Lemma alike_get d d' : alike_items d d' -> forall k,
    (assoc k d = None /\ assoc k d' = None) \/ (exists x x', assoc k d = Some x /\ assoc k d' = Some x' /\ reordered x x').
  Proof.
    intros [A B] k. destruct (in_dec string_dec k (map fst d)) as [I|I].
    - right. destruct (key_found k d I) as (x & Qx). apply A in I. destruct (key_found k d' I) as (x' & Qx'). eauto 6.
    - left. split; apply absent; [exact I|]. rewrite <- A. exact I.
  Qed.
  Lemma alike_dremove n d d' : alike_items d d' -> alike_items (dremove n d) (dremove n d').
  Proof.
    intros [A B]. split; intros k; [rewrite !keys_dremove, A; reflexivity|]. intros x x'. rewrite !assoc_dremove.
    destruct (k =? n); [discriminate|apply B].
  Qed.
  Lemma alike_set n x x' d d' : reordered x x' -> alike_items d d' -> alike_items (assoc_set n x d) (assoc_set n x' d').
  Proof.
    intros R [A B]. split; intros k; [rewrite !assoc_set_In_keys, A; reflexivity|]. intros y y'.
    destruct (string_dec k n) as [->|Q]; [rewrite !assoc_set_same; intros [= <-] [= <-]; exact R|]. rewrite !assoc_set_other by congruence. apply B.
  Qed.
  Lemma alike_compat t d d' : alike_items d d' -> alike_items (hp_compat t d) (hp_compat t d').
  Proof.
    intros S. assert (S1 := alike_dremove "q" _ _ S).
    assert (G : alike_items (backwards_compat d) (backwards_compat d')).
    { unfold backwards_compat. destruct (alike_get _ _ S1 "default") as [(-> & ->)|(x & x' & -> & -> & R)]; [exact S1|].
      assert (N : is_none x = is_none x') by (inversion R; reflexivity). rewrite N.
      destruct (is_none x'); [apply alike_dremove, S1|apply alike_set; [exact R|apply alike_dremove, S1]]. }
    unfold hp_compat. destruct (t =? "categorical"); [apply alike_dremove, G|exact G].
  Qed.
  Lemma alike_kw r o d d' : alike_items d d' -> kw_check r o d = kw_check r o d'.
  Proof.
    intros S. unfold kw_check. rewrite (forallb_keys _ _ _ (proj1 S)).
    replace (forallb (fun k => assoc_mem k d) r) with (forallb (fun k => assoc_mem k d') r); [reflexivity|].
    induction r as [|k r IH]; [reflexivity|]. simpl. rewrite IH. unfold assoc_mem. destruct (alike_get _ _ S k) as [(-> & ->)|(x & x' & -> & -> & _)]; reflexivity.
  Qed.
  Lemma alike_elems {A} (f : data -> res A) l l' : (forall x x', reordered x x' -> f x = f x') -> Forall2 reordered l l' -> mapM f l = mapM f l'.
  Proof. intros Hf F. induction F as [|x x' l l' R F IH]; [reflexivity|]. cbn [mapM]. rewrite (Hf _ _ R), IH. reflexivity. Qed.
  Lemma elem_value_alike x x' : reordered x x' -> elem_value x = elem_value x'.
  Proof. intros R. inversion R; reflexivity. Qed.
  Lemma elem_num_alike x x' : reordered x x' -> elem_num x = elem_num x'.
  Proof. intros R. inversion R; reflexivity. Qed.

  Ltac look S k := let Z := fresh "Z" in destruct (alike_get _ _ S k) as [(-> & ->)|(? & ? & -> & -> & Z)]; [reflexivity|inversion Z; subst; try reflexivity].
  Lemma alike_args d d' : alike_items d d' ->
    (forall k, arg_str k d = arg_str k d') /\ (forall k, arg_value k d = arg_value k d') /\ (forall k, arg_num k d = arg_num k d') /\
    (forall k, arg_opt_num k d = arg_opt_num k d') /\ (forall k, arg_opt_value k d = arg_opt_value k d') /\ (forall k, arg_bool k d = arg_bool k d') /\
    arg_meta d = arg_meta d' /\ (forall k, arg_values k d = arg_values k d') /\ arg_weights d = arg_weights d'.
  Proof.
    intros S. repeat apply conj; try intros k; unfold arg_str, arg_value, arg_num, arg_opt_num, arg_opt_value, arg_bool, arg_meta, arg_values, arg_weights.
    - look S k. - look S k. - look S k. - look S k. - look S k. - look S k. - look S "meta".
    - look S k. apply (alike_elems _ _ _ elem_value_alike). assumption.
    - look S "weights". rewrite (alike_elems _ _ _ elem_num_alike ltac:(eassumption)). reflexivity.
  Qed.
  Lemma alike_decoder ty f d d' : hp_decoder ty = Some f -> alike_items d d' -> f d = f d'.
  Proof.
    intros H S. destruct (alike_args _ _ S) as (A1 & A2 & A3 & A4 & A5 & A6 & A7 & A8 & A9). unfold hp_decoder in H.
    repeat match type of H with (if ?b then Some _ else _) = _ => destruct b; [injection H as <-|] end; try discriminate H;
      unfold dec_uniform, dec_shaped, dec_categorical, dec_ordinal, dec_constant;
      rewrite (alike_kw _ _ _ _ S), ?A1, ?A2, ?A3, ?A4, ?A5, ?A6, ?A7, ?A8, ?A9; reflexivity.
  Qed.
  Lemma dec_hp_alike x x' : reordered x x' -> snd (dec_hp x) = snd (dec_hp x').
  Proof.
    intros R. inversion R as [v|l l' F|d d' A B]; subst; [reflexivity|reflexivity|]. assert (S : alike_items d d') by (split; assumption).
    unfold dec_hp. destruct (alike_get _ _ S "type") as [(-> & ->)|(y & y' & -> & -> & Ry)]; [reflexivity|]. inversion Ry as [v| |]; subst; try reflexivity.
    destruct v as [ty| | | |]; try reflexivity. destruct (hp_decoder ty) as [f|] eqn:D; [|reflexivity]. cbn [snd].
    apply (alike_decoder ty f _ _ D), alike_compat, alike_dremove, S.
  Qed.

  Lemma hp_ref_alike s k d d' : alike_items d d' -> hp_ref s k d = hp_ref s k d'.
  Proof. intros S. unfold hp_ref. look S k. Qed.
  Lemma item_value_alike k d d' : alike_items d d' -> item_value k d = item_value k d'.
  Proof. intros S. unfold item_value. look S k. Qed.
  Lemma item_values_alike k d d' : alike_items d d' -> item_values k d = item_values k d'.
  Proof. intros S. unfold item_values. look S k. apply (alike_elems _ _ _ elem_value_alike). assumption. Qed.

  Lemma collect_alike {X} (f f' : data -> data * res X) l l' : Forall2 (fun x x' => snd (f x) = snd (f' x')) l l' ->
    snd (collect l (map f l)) = snd (collect l' (map f' l')).
  Proof.
    induction 1 as [|x x' l l' Q _ IH]; [reflexivity|]. cbn [map collect]. destruct (f x) as [y [a|e]], (f' x') as [y' [a'|e']]; cbn [snd] in Q; try discriminate Q.
    - injection Q as <-. destruct (collect l (map f l)), (collect l' (map f' l')). cbn [snd] in *. rewrite IH. reflexivity.
    - injection Q as <-. reflexivity.
  Qed.
  Lemma Forall2_weaken {A B} (P Q : A -> B -> Prop) l l' : Forall2 P l l' -> (forall x y, In x l -> P x y -> Q x y) -> Forall2 Q l l'.
  Proof. induction 1 as [|x y l l' Pxy _ IH]; intros H; constructor; [apply H; [left; reflexivity|exact Pxy]|apply IH; intros a b Ha; apply H; right; exact Ha]. Qed.

  Lemma subs_found {X} (f : data -> data * res X) k (d : dict_t) :
    assoc k (map (fun e : string * data => match e with (k, DList l) => (k, (l, map f l)) | (k, _) => (k, ([], [])) end) d) =
    match assoc k d with Some (DList l) => Some (l, map f l) | Some _ => Some ([], []) | None => None end.
  Proof.
    induction d as [|[n x] d IH]; [reflexivity|]. cbn [map assoc]. destruct x as [v|m|ps]; cbn [assoc]; destruct (k =? n); try reflexivity; exact IH.
  Qed.
  Lemma assoc_in k (d : dict_t) x : assoc k d = Some x -> In (k, x) d.
  Proof.
    induction d as [|[n y] d IH]; [discriminate|]. cbn [assoc]. destruct (k =? n) eqn:Q; [|intros H; right; exact (IH H)].
    intros [= ->]. apply String.eqb_eq in Q. subst. left. reflexivity.
  Qed.
  Lemma dec_conj_alike {X} (f : data -> data * res X) (mk : list X -> res X) k d d' : k <> "type" -> alike_items d d' ->
    (forall l, In (k, DList l) d -> Forall (fun y => forall y', reordered y y' -> snd (f y) = snd (f y')) l) ->
    snd (dec_conj mk k (match assoc k (map (fun e : string * data => match e with (k, DList l) => (k, (l, map f l)) | (k, _) => (k, ([], [])) end) d) with
                        | Some r => r | None => ([], []) end) (dremove "type" d)) =
    snd (dec_conj mk k (match assoc k (map (fun e : string * data => match e with (k, DList l) => (k, (l, map f l)) | (k, _) => (k, ([], [])) end) d') with
                        | Some r => r | None => ([], []) end) (dremove "type" d')).
  Proof.
    intros N S G. unfold dec_conj. rewrite !subs_found, !assoc_dremove. apply String.eqb_neq in N. rewrite N.
    destruct (alike_get _ _ S k) as [(-> & ->)|(x & x' & Qx & -> & R)]; [reflexivity|]. rewrite Qx. inversion R as [v|l l' F|]; subst; try reflexivity.
    cbn [fst snd]. apply assoc_in in Qx. specialize (G l Qx). rewrite Forall_forall in G.
    assert (C := collect_alike f f l l' (Forall2_weaken _ _ _ _ F (fun x y Hx Pxy => G x Hx y Pxy))).
    destruct (collect l (map f l)), (collect l' (map f l')). cbn [snd] in *. rewrite C. reflexivity.
  Qed.

  Lemma dec_cond_alike s : forall x,
    (forall x', reordered x x' -> snd (dec_cond s x) = snd (dec_cond s x')) /\
    (forall l, x = DList l -> Forall (fun y => forall y', reordered y y' -> snd (dec_cond s y) = snd (dec_cond s y')) l).
  Proof.
    intros x. induction x as [v|l IH|d IH] using data_ind2.
    - split; [intros x' R; inversion R; reflexivity|]. intros l Hl. discriminate Hl.
    - split; [intros x' R; inversion R; reflexivity|]. intros l' [= <-]. rewrite Forall_forall in *. intros y Hy. apply (IH y Hy).
    - split; [|intros l Hl; discriminate Hl]. rewrite Forall_forall in IH.
      assert (G : forall l, In ("conditions", DList l) d -> Forall (fun y => forall y', reordered y y' -> snd (dec_cond s y) = snd (dec_cond s y')) l)
        by (intros l Hl; exact (proj2 (IH _ Hl) l eq_refl)).
      intros x' R. inversion R as [| |d0 d' A B]; subst. assert (S : alike_items d d') by (split; assumption). assert (S' := alike_dremove "type" _ _ S).
      cbn [dec_cond]. destruct (alike_get _ _ S "type") as [(-> & ->)|(y & y' & -> & -> & Ry)]; [reflexivity|]. inversion Ry as [v| |]; subst; try reflexivity.
      destruct v as [ty| | | |]; try reflexivity. unfold dec_bin, dec_in.
      rewrite !(hp_ref_alike _ _ _ _ S'), (item_value_alike _ _ _ S'), (item_values_alike _ _ _ S').
      do 5 (match goal with |- context [if (ty =? ?t) then _ else _] => destruct (ty =? t) end; [reflexivity|]).
      do 2 (match goal with |- context [if (ty =? ?t) then _ else _] => destruct (ty =? t) end; [apply dec_conj_alike; [discriminate|exact S|exact G]|]). reflexivity.
  Qed.
  Lemma dec_forb_alike s : forall x,
    (forall x', reordered x x' -> snd (dec_forb s x) = snd (dec_forb s x')) /\
    (forall l, x = DList l -> Forall (fun y => forall y', reordered y y' -> snd (dec_forb s y) = snd (dec_forb s y')) l).
  Proof.
    intros x. induction x as [v|l IH|d IH] using data_ind2.
    - split; [intros x' R; inversion R; reflexivity|]. intros l Hl. discriminate Hl.
    - split; [intros x' R; inversion R; reflexivity|]. intros l' [= <-]. rewrite Forall_forall in *. intros y Hy. apply (IH y Hy).
    - split; [|intros l Hl; discriminate Hl]. rewrite Forall_forall in IH.
      assert (G : forall l, In ("clauses", DList l) d -> Forall (fun y => forall y', reordered y y' -> snd (dec_forb s y) = snd (dec_forb s y')) l)
        by (intros l Hl; exact (proj2 (IH _ Hl) l eq_refl)).
      intros x' R. inversion R as [| |d0 d' A B]; subst. assert (S : alike_items d d') by (split; assumption). assert (S' := alike_dremove "type" _ _ S).
      cbn [dec_forb]. destruct (alike_get _ _ S "type") as [(-> & ->)|(y & y' & -> & -> & Ry)]; [reflexivity|]. inversion Ry as [v| |]; subst; try reflexivity.
      destruct v as [ty| | | |]; try reflexivity. unfold dec_legacy, dec_feq, dec_fin, dec_frel.
      rewrite !(hp_ref_alike _ _ _ _ S'), (item_value_alike _ _ _ S'), (item_values_alike _ _ _ S').
      do 2 (match goal with |- context [if (ty =? ?t) then _ else _] => destruct (ty =? t) end; [reflexivity|]).
      match goal with |- context [if (ty =? ?t) then _ else _] => destruct (ty =? t) end; [apply dec_conj_alike; [discriminate|exact S|exact G]|].
      do 3 (match goal with |- context [if (ty =? ?t) then _ else _] => destruct (ty =? t) end; [reflexivity|]).
      match goal with |- context [if (ty =? ?t) then _ else _] => destruct (ty =? t) end; [|reflexivity]. cbn [snd].
      destruct (alike_get _ _ S' "lambda") as [(-> & ->)|(z & z' & -> & -> & Rz)]; [reflexivity|]. inversion Rz; subst; reflexivity.
  Qed.

  Theorem C127_reordered d d' : reordered (DDict d) (DDict d') -> snd (from_serialized d) = snd (from_serialized d').
  Proof.
    intros R. inversion R as [| |d0 d0' A B]; subst. assert (S : alike_items d d') by (split; assumption). unfold from_serialized.
    assert (N : get_name d = get_name d') by (unfold get_name; look S "name"). rewrite N.
    assert (G : forall k, (exists e, get_list k d = Err e /\ get_list k d' = Err e) \/ (exists l l', get_list k d = Ok l /\ get_list k d' = Ok l' /\ Forall2 reordered l l')).
    { intros k. unfold get_list. destruct (alike_get _ _ S k) as [(-> & ->)|(x & x' & -> & -> & Rx)]; [right; exists [], []; auto|].
      inversion Rx; subst; [left; eexists; split; reflexivity|right; eauto 6|left; eexists; split; reflexivity]. }
    destruct (get_name d') as [name|]; [|reflexivity].
    destruct (G "hyperparameters") as [(e & -> & ->)|(lh & lh' & -> & -> & Fh)]; [reflexivity|].
    destruct (G "conditions") as [(e & -> & ->)|(lc & lc' & -> & -> & Fc)]; [reflexivity|].
    destruct (G "forbiddens") as [(e & -> & ->)|(lf & lf' & -> & -> & Ff)]; [reflexivity|].
    assert (C1 := collect_alike dec_hp dec_hp lh lh' (Forall2_weaken _ _ _ _ Fh (fun x y _ H => dec_hp_alike x y H))).
    destruct (collect lh (map dec_hp lh)) as [mh rh], (collect lh' (map dec_hp lh')) as [mh' rh']. cbn [snd] in C1. subst rh'.
    destruct rh as [hs|e]; [|reflexivity]. destruct (c_add (new_space name None) hs [] []) as [x1 [[]|e]]; [|reflexivity].
    assert (C2 := collect_alike (dec_cond (c_space x1)) (dec_cond (c_space x1)) lc lc' (Forall2_weaken _ _ _ _ Fc (fun x y _ H => proj1 (dec_cond_alike _ x) y H))).
    destruct (collect lc _) as [mc rc], (collect lc' _) as [mc' rc']. cbn [snd] in C2. subst rc'. destruct rc as [cs|e]; [|reflexivity].
    assert (C3 := collect_alike (dec_forb (c_space x1)) (dec_forb (c_space x1)) lf lf' (Forall2_weaken _ _ _ _ Ff (fun x y _ H => proj1 (dec_forb_alike _ x) y H))).
    destruct (collect lf _) as [mf rf], (collect lf' _) as [mf' rf']. cbn [snd] in C3. subst rf'. destruct rf as [fs|e]; [|reflexivity].
    destruct (c_add x1 [] cs fs) as [x2 [[]|e]]; reflexivity.
  Qed.

  (** ** Keys that may be left out *)

  Lemma default_left d : ~ In "default" (map fst d) -> forall t k x, k <> "type" -> k <> "q" -> k <> "default" -> k <> "probabilities" ->
    hp_compat t (dremove "type" ((k, x) :: d)) = (k, x) :: hp_compat t (dremove "type" d).
  Proof.
    intros N t k x K1 K2 K3 K4. apply String.eqb_neq in K1, K2, K4. assert (K3' := K3). apply String.eqb_neq in K3.
    assert (B : backwards_compat (dremove "type" ((k, x) :: d)) = (k, x) :: backwards_compat (dremove "type" d)).
    { rewrite dremove_cons, K1. unfold backwards_compat. rewrite dremove_cons, K2. cbn [assoc]. rewrite (String.eqb_sym "default" k), K3.
      assert (M : ~ In "default" (map fst (dremove "q" (dremove "type" d)))) by (rewrite !keys_dremove; tauto). rewrite (absent _ _ M). reflexivity. }
    unfold hp_compat. rewrite B. destruct (t =? "categorical"); [|reflexivity]. rewrite dremove_cons, K4. reflexivity.
  Qed.
  (** [kw_check] with one more optional key *)
  Lemma kw_more r o k x d : In k o -> ~ In k r -> kw_check r o ((k, x) :: d) = kw_check r o d.
  Proof.
    intros Ho Hr. unfold kw_check. cbn [map fst forallb].
    replace (str_in k (r ++ o)) with true by (symmetry; apply str_in_iff, in_or_app; right; exact Ho). cbn [andb].
    replace (forallb (fun k0 => assoc_mem k0 ((k, x) :: d)) r) with (forallb (fun k0 => assoc_mem k0 d) r); [reflexivity|].
    clear Ho. induction r as [|a r IH]; [reflexivity|]. cbn [forallb]. rewrite IH by (intros H; apply Hr; right; exact H).
    unfold assoc_mem. cbn [assoc]. destruct (a =? k) eqn:Q; [|reflexivity]. apply String.eqb_eq in Q. subst. elim Hr. left. reflexivity.
  Qed.
  (** the types whose constructors have the argument log *)
  Definition numerical (ty : string) : Prop := In ty ["uniform_float"; "uniform_int"; "normal_int"; "normal_float"; "beta_int"; "beta_float"].

  Lemma dec_as t d d' : assoc "type" d = Some (dstr t) -> assoc "type" d' = Some (dstr t) -> 
    (forall f, hp_decoder t = Some f -> f (hp_compat t (dremove "type" d)) = f (hp_compat t (dremove "type" d'))) -> snd (dec_hp (DDict d)) = snd (dec_hp (DDict d')).
  Proof. intros A B C. unfold dec_hp. rewrite A, B. unfold dstr. destruct (hp_decoder t) as [f|]; [|reflexivity]. cbn [snd]. exact (C f eq_refl). Qed.

  Lemma arg_skip k x d : (forall n, n <> k -> arg_str n ((k, x) :: d) = arg_str n d /\ arg_value n ((k, x) :: d) = arg_value n d /\ arg_num n ((k, x) :: d) = arg_num n d /\
      arg_opt_num n ((k, x) :: d) = arg_opt_num n d /\ arg_opt_value n ((k, x) :: d) = arg_opt_value n d /\ arg_bool n ((k, x) :: d) = arg_bool n d /\
      arg_values n ((k, x) :: d) = arg_values n d) /\
    (k <> "meta" -> arg_meta ((k, x) :: d) = arg_meta d) /\ (k <> "weights" -> arg_weights ((k, x) :: d) = arg_weights d).
  Proof.
    split; [|split].
    - intros n N. apply String.eqb_neq in N. unfold arg_str, arg_value, arg_num, arg_opt_num, arg_opt_value, arg_bool, arg_values. cbn [assoc]. rewrite N. repeat split; reflexivity.
    - intros N. unfold arg_meta. cbn [assoc]. destruct ("meta" =? k) eqn:Q; [apply String.eqb_eq in Q; congruence|reflexivity].
    - intros N. unfold arg_weights. cbn [assoc]. destruct ("weights" =? k) eqn:Q; [apply String.eqb_eq in Q; congruence|reflexivity].
  Qed.

  (** log is false, meta is None, weights are None, and the default value of a number is None when they are left out *)
  Theorem C127_log t d : numerical t -> assoc "type" d = Some (dstr t) -> ~ In "default" (map fst d) -> ~ In "log" (map fst d) ->
    snd (dec_hp (DDict (("log", DVal (VBool false)) :: d))) = snd (dec_hp (DDict d)).
  Proof.
    intros Nu Ty Nd Nl. apply (dec_as t); [exact Ty|exact Ty|]. intros f Hf. rewrite (default_left d Nd t) by discriminate.
    set (e := hp_compat t (dremove "type" d)).
    assert (Ab : assoc "log" e = None).
    { apply absent. unfold e, hp_compat, backwards_compat. rewrite (absent "default") by (rewrite !keys_dremove; tauto). destruct (t =? "categorical"); rewrite !keys_dremove; tauto. }
    destruct (arg_skip "log" (DVal (VBool false)) e) as (Sk & Sm & _).
    assert (Bo : arg_bool "log" (("log", DVal (VBool false)) :: e) = arg_bool "log" e) by (unfold arg_bool; cbn [assoc]; rewrite Ab; reflexivity).
    assert (U : forall g, dec_uniform g (("log", DVal (VBool false)) :: e) = dec_uniform g e).
    { intros g. unfold dec_uniform. rewrite (kw_more _ _ "log") by (cbn; intuition discriminate). rewrite Bo, (Sm ltac:(discriminate)).
      destruct (Sk "name" ltac:(discriminate)) as (-> & _). destruct (Sk "lower" ltac:(discriminate)) as (_ & _ & -> & _). destruct (Sk "upper" ltac:(discriminate)) as (_ & _ & -> & _).
      destruct (Sk "default_value" ltac:(discriminate)) as (_ & _ & _ & -> & _). reflexivity. }
    assert (V : forall a b g, a <> "log" -> b <> "log" -> dec_shaped a b g (("log", DVal (VBool false)) :: e) = dec_shaped a b g e).
    { intros a b g Ha Hb. unfold dec_shaped. rewrite (kw_more _ _ "log"); [|cbn; tauto|cbn; intuition congruence]. rewrite Bo, (Sm ltac:(discriminate)).
      destruct (Sk "name" ltac:(discriminate)) as (-> & _). destruct (Sk "lower" ltac:(discriminate)) as (_ & _ & -> & _). destruct (Sk "upper" ltac:(discriminate)) as (_ & _ & -> & _).
      destruct (Sk "default_value" ltac:(discriminate)) as (_ & _ & _ & -> & _). destruct (Sk a Ha) as (_ & _ & -> & _). destruct (Sk b Hb) as (_ & _ & -> & _). reflexivity. }
    destruct Nu as [<-|[<-|[<-|[<-|[<-|[<-|[]]]]]]]; cbn in Hf; injection Hf as <-; first [apply U|apply V; discriminate].
  Qed.
  Theorem C127_meta t d : assoc "type" d = Some (dstr t) -> ~ In "default" (map fst d) -> ~ In "meta" (map fst d) ->
    snd (dec_hp (DDict (("meta", DVal VNone) :: d))) = snd (dec_hp (DDict d)).
  Proof.
    intros Ty Nd Nl. apply (dec_as t); [exact Ty|exact Ty|]. intros f Hf. rewrite (default_left d Nd t) by discriminate.
    set (e := hp_compat t (dremove "type" d)).
    assert (Ab : assoc "meta" e = None).
    { apply absent. unfold e, hp_compat, backwards_compat. rewrite (absent "default") by (rewrite !keys_dremove; tauto). destruct (t =? "categorical"); rewrite !keys_dremove; tauto. }
    destruct (arg_skip "meta" (DVal VNone) e) as (Sk & _ & Sw). specialize (Sw ltac:(discriminate)).
    assert (Bo : arg_meta (("meta", DVal VNone) :: e) = arg_meta e) by (unfold arg_meta; cbn [assoc]; rewrite Ab; reflexivity).
    assert (S1 := fun n (N : n <> "meta") => proj1 (Sk n N)). assert (S2 := fun n (N : n <> "meta") => proj1 (proj2 (Sk n N))).
    assert (S3 := fun n (N : n <> "meta") => proj1 (proj2 (proj2 (Sk n N)))). assert (S4 := fun n (N : n <> "meta") => proj1 (proj2 (proj2 (proj2 (Sk n N))))).
    assert (S5 := fun n (N : n <> "meta") => proj1 (proj2 (proj2 (proj2 (proj2 (Sk n N)))))). assert (S6 := fun n (N : n <> "meta") => proj1 (proj2 (proj2 (proj2 (proj2 (proj2 (Sk n N))))))).
    assert (S7 := fun n (N : n <> "meta") => proj2 (proj2 (proj2 (proj2 (proj2 (proj2 (Sk n N))))))).
    unfold hp_decoder in Hf.
    repeat match type of Hf with (if ?b then Some _ else _) = _ => destruct b; [injection Hf as <-|] end; try discriminate Hf;
      unfold dec_uniform, dec_shaped, dec_categorical, dec_ordinal, dec_constant;
      rewrite (kw_more _ _ "meta") by (cbn; intuition discriminate); rewrite Bo, ?Sw, ?S1, ?S2, ?S3, ?S4, ?S5, ?S6, ?S7 by discriminate; reflexivity.
  Qed.
  Theorem C127_weights d : assoc "type" d = Some (dstr "categorical") -> ~ In "default" (map fst d) -> ~ In "weights" (map fst d) ->
    snd (dec_hp (DDict (("weights", DVal VNone) :: d))) = snd (dec_hp (DDict d)).
  Proof.
    intros Ty Nd Nl. apply (dec_as "categorical"); [exact Ty|exact Ty|]. intros f Hf. rewrite (default_left d Nd "categorical") by discriminate.
    set (e := hp_compat "categorical" (dremove "type" d)).
    assert (Ab : assoc "weights" e = None).
    { apply absent. unfold e, hp_compat, backwards_compat. rewrite (absent "default") by (rewrite !keys_dremove; tauto). change ("categorical" =? "categorical") with true. cbv iota. rewrite !keys_dremove. tauto. }
    destruct (arg_skip "weights" (DVal VNone) e) as (Sk & Sm & _). specialize (Sm ltac:(discriminate)).
    assert (Bo : arg_weights (("weights", DVal VNone) :: e) = arg_weights e) by (unfold arg_weights; cbn [assoc]; rewrite Ab; reflexivity).
    injection Hf as <-. unfold dec_categorical. rewrite (kw_more _ _ "weights") by (cbn; intuition discriminate). rewrite Bo, Sm.
    destruct (Sk "name" ltac:(discriminate)) as (-> & _). destruct (Sk "choices" ltac:(discriminate)) as (_ & _ & _ & _ & _ & _ & ->).
    destruct (Sk "default_value" ltac:(discriminate)) as (_ & _ & _ & _ & -> & _). reflexivity.
  Qed.
  Theorem C127_no_default t d : numerical t -> assoc "type" d = Some (dstr t) -> ~ In "default" (map fst d) -> ~ In "default_value" (map fst d) ->
    snd (dec_hp (DDict (("default_value", DVal VNone) :: d))) = snd (dec_hp (DDict d)).
  Proof.
    intros Nu Ty Nd Nl. apply (dec_as t); [exact Ty|exact Ty|]. intros f Hf. rewrite (default_left d Nd t) by discriminate.
    set (e := hp_compat t (dremove "type" d)).
    assert (Ab : assoc "default_value" e = None).
    { apply absent. unfold e, hp_compat, backwards_compat. rewrite (absent "default") by (rewrite !keys_dremove; tauto). destruct (t =? "categorical"); rewrite !keys_dremove; tauto. }
    destruct (arg_skip "default_value" (DVal VNone) e) as (Sk & Sm & _).
    assert (Bo : arg_opt_num "default_value" (("default_value", DVal VNone) :: e) = arg_opt_num "default_value" e) by (unfold arg_opt_num; cbn [assoc]; rewrite Ab; reflexivity).
    assert (U : forall g, dec_uniform g (("default_value", DVal VNone) :: e) = dec_uniform g e).
    { intros g. unfold dec_uniform. rewrite (kw_more _ _ "default_value") by (cbn; intuition discriminate). rewrite Bo, (Sm ltac:(discriminate)).
      destruct (Sk "name" ltac:(discriminate)) as (-> & _). destruct (Sk "lower" ltac:(discriminate)) as (_ & _ & -> & _). destruct (Sk "upper" ltac:(discriminate)) as (_ & _ & -> & _).
      destruct (Sk "log" ltac:(discriminate)) as (_ & _ & _ & _ & _ & -> & _). reflexivity. }
    assert (V : forall a b g, a <> "default_value" -> b <> "default_value" -> dec_shaped a b g (("default_value", DVal VNone) :: e) = dec_shaped a b g e).
    { intros a b g Ha Hb. unfold dec_shaped. rewrite (kw_more _ _ "default_value"); [|cbn; tauto|cbn; intuition congruence]. rewrite Bo, (Sm ltac:(discriminate)).
      destruct (Sk "name" ltac:(discriminate)) as (-> & _). destruct (Sk "lower" ltac:(discriminate)) as (_ & _ & -> & _). destruct (Sk "upper" ltac:(discriminate)) as (_ & _ & -> & _).
      destruct (Sk "log" ltac:(discriminate)) as (_ & _ & _ & _ & _ & -> & _). destruct (Sk a Ha) as (_ & _ & -> & _). destruct (Sk b Hb) as (_ & _ & -> & _). reflexivity. }
    destruct Nu as [<-|[<-|[<-|[<-|[<-|[<-|[]]]]]]]; cbn in Hf; injection Hf as <-; first [apply U|apply V; discriminate].
  Qed.

  (** ** What is refused *)

  (** the arguments of the constructor of each type: those it needs and all *)
  Definition needed (ty : string) : option (list string) :=
    assoc ty [("uniform_float", ["name"; "lower"; "upper"]); ("uniform_int", ["name"; "lower"; "upper"]);
      ("normal_float", ["name"; "mu"; "sigma"; "lower"; "upper"]); ("normal_int", ["name"; "mu"; "sigma"; "lower"; "upper"]);
      ("beta_float", ["name"; "alpha"; "beta"; "lower"; "upper"]); ("beta_int", ["name"; "alpha"; "beta"; "lower"; "upper"]);
      ("categorical", ["name"; "choices"]); ("ordinal", ["name"; "sequence"]); ("constant", ["name"; "value"])].
  Definition further (ty : string) : list string :=
    if ty =? "categorical" then ["default_value"; "meta"; "weights"] else if ty =? "ordinal" then ["default_value"; "meta"]
    else if ty =? "constant" then ["meta"] else ["default_value"; "log"; "meta"].
  (** keys that only older versions wrote, and the type *)
  Definition special : list string := ["type"; "q"; "default"; "probabilities"].

  Lemma decoder_keys ty f : hp_decoder ty = Some f -> exists r, needed ty = Some r /\ forall d a, f d = Ok a \/ (exists e, f d = Err e) ->
    kw_check r (further ty) d <> Ok tt -> f d = Err TypeError.
  Proof.
    unfold hp_decoder. 
    assert (K : forall r o d (g : res hp), kw_check r o d <> Ok tt -> (_ <- kw_check r o d ;; g) = Err TypeError).
    { intros r o d g. unfold kw_check. destruct (forallb _ _); [|reflexivity]. destruct (forallb _ _); [congruence|reflexivity]. }
    intros H. repeat match type of H with (if ty =? ?t then Some _ else _) = _ => destruct (String.eqb_spec ty t) as [->|]; [injection H as <-; eexists; split; [reflexivity|]; intros d a _ N; apply K, N|] end. discriminate H.
  Qed.
  Lemma decoder_err ty f r d : hp_decoder ty = Some f -> needed ty = Some r -> kw_check r (further ty) d <> Ok tt -> f d = Err TypeError.
  Proof.
    intros H N. destruct (decoder_keys ty f H) as (r' & N' & K). assert (r' = r) by congruence. subst.
    destruct (f d) as [a|e] eqn:Q; [rewrite <- Q; apply (K d a); left; exact Q|rewrite <- Q; apply (K d dummy_hp); right; eauto].
  Qed.
  Lemma compat_keys t d k : ~ In k special -> k <> "default_value" -> (In k (map fst (hp_compat t (dremove "type" d))) <-> In k (map fst d)).
  Proof.
    unfold special. cbn [In]. intros S D. assert (K1 : k <> "type" /\ k <> "q" /\ k <> "default" /\ k <> "probabilities") by (repeat split; intros ->; apply S; tauto). assert (B : In k (map fst (backwards_compat (dremove "type" d))) <-> In k (map fst d)).
    { unfold backwards_compat. destruct (assoc "default" _) as [x|]; [destruct (is_none x)|]; rewrite ?assoc_set_In_keys, ?keys_dremove; tauto. }
    unfold hp_compat. destruct (t =? "categorical"); [rewrite keys_dremove, B; tauto|exact B].
  Qed.
  Theorem C127_unknown_key ty r d k : assoc "type" d = Some (dstr ty) -> needed ty = Some r -> In k (map fst d) ->
    ~ In k special -> ~ In k r -> ~ In k (further ty) -> k <> "default_value" -> snd (dec_hp (DDict d)) = Err TypeError.
  Proof.
    intros Ty N Hk S Hr Hf Hd. unfold dec_hp. rewrite Ty. unfold dstr. destruct (hp_decoder ty) as [f|] eqn:D.
    - cbn [snd]. apply (decoder_err ty f r _ D N). unfold kw_check. destruct (forallb _ (map fst _)) eqn:F; [|discriminate]. exfalso.
      rewrite forallb_forall in F. specialize (F k (proj2 (compat_keys ty d k S Hd) Hk)). apply str_in_iff, in_app_or in F. tauto.
    - exfalso. unfold hp_decoder in D. unfold needed in N. cbn [assoc] in N.
      repeat match type of D with (if ty =? ?t then Some _ else _) = _ => destruct (String.eqb_spec ty t) as [->|]; [discriminate D|] end.
      repeat match type of N with (if ty =? ?t then Some _ else _) = _ => destruct (String.eqb_spec ty t) as [->|]; [congruence|] end. discriminate N.
  Qed.
  Theorem C127_missing_key ty r d k : assoc "type" d = Some (dstr ty) -> needed ty = Some r -> In k r -> ~ In k (map fst d) -> snd (dec_hp (DDict d)) = Err TypeError.
  Proof.
    intros Ty N Hr Hk. unfold dec_hp. rewrite Ty. unfold dstr. destruct (hp_decoder ty) as [f|] eqn:D.
    - cbn [snd]. apply (decoder_err ty f r _ D N).
      assert (S : ~ In k special /\ k <> "default_value").
      { unfold needed in N. cbn [assoc] in N. unfold special.
        repeat match type of N with (if ty =? ?t then Some _ else _) = _ => destruct (ty =? t); [injection N as <-; cbn in Hr; split; [cbn; intuition congruence|intuition congruence]|] end. discriminate N. }
      unfold kw_check. destruct (forallb _ (map fst _)); [|discriminate]. destruct (forallb _ r) eqn:F; [|discriminate]. exfalso.
      rewrite forallb_forall in F. specialize (F k Hr). apply Hk, (compat_keys ty d k (proj1 S) (proj2 S)). unfold assoc_mem in F.
      destruct (assoc k _) as [x|] eqn:A; [exact (found_key _ _ _ A)|discriminate F].
    - exfalso. unfold hp_decoder in D. unfold needed in N. cbn [assoc] in N.
      repeat match type of D with (if ty =? ?t then Some _ else _) = _ => destruct (String.eqb_spec ty t) as [->|]; [discriminate D|] end.
      repeat match type of N with (if ty =? ?t then Some _ else _) = _ => destruct (String.eqb_spec ty t) as [->|]; [congruence|] end. discriminate N.
  Qed.
  Theorem C127_type s d : (assoc "type" d = None -> snd (dec_hp (DDict d)) = Err KeyError /\ snd (dec_cond s (DDict d)) = Err KeyError /\ snd (dec_forb s (DDict d)) = Err KeyError) /\
    (forall ty, assoc "type" d = Some (dstr ty) ->
       (needed ty = None -> snd (dec_hp (DDict d)) = Err ValueError) /\
       (~ In ty ["EQ"; "NEQ"; "LT"; "GT"; "IN"; "AND"; "OR"] -> snd (dec_cond s (DDict d)) = Err ValueError) /\
       (~ In ty ["EQUALS"; "IN"; "AND"; "RELATION_LT"; "RELATION_EQ"; "RELATION_GT"; "RELATION"] -> snd (dec_forb s (DDict d)) = Err ValueError)).
  Proof.
    split; [intros N; unfold dec_hp; cbn [dec_cond dec_forb]; rewrite N; repeat split; reflexivity|].
    intros ty Ty. unfold dec_hp. cbn [dec_cond dec_forb]. rewrite Ty. unfold dstr. split; [|split].
    - intros N. unfold needed in N. cbn [assoc] in N. destruct (hp_decoder ty) as [f|] eqn:D; [|reflexivity]. exfalso. unfold hp_decoder in D.
      repeat match type of N with (if ty =? ?t then Some _ else _) = _ => destruct (String.eqb_spec ty t) as [->|]; [discriminate N|] end.
      repeat match type of D with (if ty =? ?t then Some _ else _) = _ => destruct (String.eqb_spec ty t) as [->|]; [congruence|] end. discriminate D.
    - cbn [In]. intros N. repeat match goal with |- context [if ty =? ?t then _ else _] => destruct (String.eqb_spec ty t) as [->|]; [exfalso; tauto|] end. reflexivity.
    - cbn [In]. intros N. repeat match goal with |- context [if ty =? ?t then _ else _] => destruct (String.eqb_spec ty t) as [->|]; [exfalso; tauto|] end. reflexivity.
  Qed.
  (** a condition about a hyperparameter that the space lacks *)
  Theorem C127_dangling s d ty k n : assoc "type" d = Some (dstr ty) -> In ty ["EQ"; "NEQ"; "LT"; "GT"; "IN"] -> In k ["child"; "parent"] ->
    assoc k d = Some (dstr n) -> get_hp s n = None -> (forall k', In k' ["child"; "parent"] -> exists m, assoc k' d = Some (dstr m)) ->
    snd (dec_cond s (DDict d)) = Err KeyError.
  Proof.
    intros Ty Ht Hk Hn G Al. set (e := dremove "type" d).
    assert (R : forall k', In k' ["child"; "parent"] -> exists m, assoc k' e = Some (dstr m)).
    { intros k' H'. destruct (Al k' H') as (m & Hm). exists m. unfold e. rewrite assoc_dremove. destruct H' as [<-|[<-|[]]]; exact Hm. }
    assert (Hn' : assoc k e = Some (dstr n)) by (unfold e; rewrite assoc_dremove; destruct Hk as [<-|[<-|[]]]; exact Hn).
    assert (H : (exists a, hp_ref s "child" e = Ok a) /\ hp_ref s "parent" e = Err KeyError \/ hp_ref s "child" e = Err KeyError).
    { unfold hp_ref. destruct (R "child" ltac:(cbn; tauto)) as (c & Hc). destruct (R "parent" ltac:(cbn; tauto)) as (q & Hq). unfold dstr in *.
      destruct Hk as [<-|[<-|[]]]; rewrite Hn' in *.
      - right. rewrite G. reflexivity.
      - rewrite Hc. destruct (get_hp s c) as [h|]; [left; rewrite G; eauto|right; reflexivity]. }
    assert (B : forall o, dec_bin s o e = Err KeyError) by (intros o; unfold dec_bin; destruct H as [[(a & ->) ->]| ->]; reflexivity).
    assert (I : dec_in s e = Err KeyError) by (unfold dec_in; destruct H as [[(a & ->) ->]| ->]; reflexivity).
    cbn [dec_cond]. rewrite Ty. unfold dstr. fold e. destruct Ht as [<-|[<-|[<-|[<-|[<-|[]]]]]]; cbn [snd]; first [apply B|apply I].
  Qed.
End Load.

Section C127_witness.
  #[local] Existing Instance rat_env.

  (** an item of an older version: default instead of default_value, q, and probabilities *)
  Definition old_item : dict_t :=
    [("name", dstr "k"); ("type", dstr "categorical"); ("choices", DList [dstr "x"; dstr "y"]); ("probabilities", DVal VNone);
     ("default", dstr "y"); ("q", DVal VNone)].
  Definition old_dict : dict_t :=
    [("hyperparameters", DList [DDict old_item;
        DDict [("name", dstr "n"); ("type", dstr "uniform_int"); ("log", DVal (VBool false)); ("lower", dint 1); ("upper", dint 9); ("default", DVal VNone); ("q", dint 2)]]);
     ("conditions", DList [DDict [("child", dstr "n"); ("parent", dstr "k"); ("type", dstr "EQ"); ("value", dstr "y")]]);
     ("forbiddens", DList [DDict [("left", dstr "k"); ("right", dstr "n"); ("type", dstr "RELATION"); ("lambda", dstr "EQ")]])].
  Definition old_read : cspace := get_or (new_space None None) (snd (from_serialized old_dict)).
  Example C127_ex : exists d' hs cs fs y, from_serialized old_dict = (d', Ok old_read) /\ cbuilt old_read hs cs fs /\ refs hs cs fs /\
    keys (c_space old_read) = ["k"; "n"] /\ option_map hp_default (get_hp (c_space old_read) "k") = Some (VStr "y") /\
    option_map hp_default (get_hp (c_space old_read) "n") = Some (VInt 5) /\
    distinct_strings (c_space old_read) /\ NoDup (map forb_str (forbidden_clauses (c_space old_read))) /\
    round_trip old_read = Ok y /\ cspace_eqb y old_read = true.
  Proof.
    assert (LA := rat_env_laws).
    assert (F : snd (from_serialized old_dict) = Ok old_read) by (vm_compute; reflexivity).
    destruct (from_serialized old_dict) as [d' r] eqn:Q. simpl in F. subst r. destruct (C127_built _ _ _ Q) as (hs & cs & fs & CB & R).
    exists d', hs, cs, fs, (get_or old_read (round_trip old_read)). split; [reflexivity|]. split; [exact CB|]. split; [exact R|].
    split; [vm_compute; reflexivity|]. split; [vm_compute; reflexivity|]. split; [vm_compute; reflexivity|].
    assert (U : distinct_strings (c_space old_read)).
    { apply (strings_distinct _ _ _ _ (cbuilt_built _ _ _ _ CB)). apply nodup_strings. vm_compute. reflexivity. }
    assert (ND : NoDup (map forb_str (forbidden_clauses (c_space old_read)))) by (apply nodup_strings; vm_compute; reflexivity).
    assert (Rt : round_trip old_read = Ok (get_or old_read (round_trip old_read))) by (vm_compute; reflexivity).
    split; [exact U|]. split; [exact ND|]. split; [exact Rt|]. apply (C127_equal_partial _ _ _ _ Q U ND Rt).
  Qed.

  (** the same with all keys in some other order *)
  Definition old_dict_again : dict_t :=
    [("forbiddens", DList [DDict [("type", dstr "RELATION"); ("lambda", dstr "EQ"); ("right", dstr "n"); ("left", dstr "k")]]);
     ("conditions", DList [DDict [("value", dstr "y"); ("type", dstr "EQ"); ("parent", dstr "k"); ("child", dstr "n")]]);
     ("hyperparameters", DList [DDict (rev old_item);
        DDict [("q", dint 2); ("lower", dint 1); ("name", dstr "n"); ("type", dstr "uniform_int"); ("log", DVal (VBool false)); ("default", DVal VNone); ("upper", dint 9)]])].
  Ltac reorder := first [apply ro_val | apply ro_list; repeat first [apply Forall2_nil | apply Forall2_cons; [reorder|]]
    | apply ro_dict; [cbn; intuition congruence
        | intros k x x' H H'; apply assoc_in in H; cbn in H;
          repeat (destruct H as [H|H]; [injection H as <- <-; cbn in H'; injection H' as <-; reorder|]); destruct H]].
  Example C127_reordered_ex : reordered (DDict old_dict) (DDict old_dict_again) /\ snd (from_serialized old_dict_again) = Ok old_read.
  Proof.
    assert (Rr : reordered (DDict old_dict) (DDict old_dict_again)) by reorder.
    split; [exact Rr|]. rewrite <- (C127_reordered _ _ Rr). vm_compute. reflexivity.
  Qed.

  (** what was read need not be readable again: a mean that is rounded to 0 *)
  Definition tiny_dict : dict_t :=
    [("hyperparameters", DList [DDict [("type", dstr "normal_float"); ("name", dstr "t"); ("mu", dfloat (1 # 100000000000000)); ("sigma", dfloat 1);
       ("lower", dfloat 1); ("upper", dfloat 2); ("log", DVal (VBool true))]])].
  Definition tiny_read : cspace := get_or (new_space None None) (snd (from_serialized tiny_dict)).
  Theorem C127_again_refuted : exists d d' x, from_serialized d = (d', Ok x) /\ distinct_strings (c_space x) /\ round_trip x = Err ValueError.
  Proof.
    assert (LA := rat_env_laws).
    assert (F : snd (from_serialized tiny_dict) = Ok tiny_read) by (vm_compute; reflexivity).
    destruct (from_serialized tiny_dict) as [d' r] eqn:Q. simpl in F. subst r. exists tiny_dict, d', tiny_read. split; [exact Q|].
    destruct (C127_built _ _ _ Q) as (hs & cs & fs & CB & _). split; [|vm_compute; reflexivity].
    apply (strings_distinct _ _ _ _ (cbuilt_built _ _ _ _ CB)). apply nodup_strings. vm_compute. reflexivity.
  Qed.

  (** the probabilities of an older dictionary are lost: they are not read as weights *)
  Definition weighed (k : string) : dict_t :=
    [("name", dstr "k"); ("type", dstr "categorical"); ("choices", DList [dstr "x"; dstr "y"]); (k, DList [dfloat (9#10); dfloat (1#10)])].
  Theorem C127_probabilities_refuted : exists h h', snd (dec_hp (DDict (weighed "probabilities"))) = Ok h /\ snd (dec_hp (DDict (weighed "weights"))) = Ok h' /\
    hp_eqb h h' = false /\ pdf_value h (fun _ => (1#1)%Q) (VStr "x") <> pdf_value h' (fun _ => (1#1)%Q) (VStr "x").
  Proof.
    eexists _, _. split; [vm_compute; reflexivity|]. split; [vm_compute; reflexivity|]. split; [vm_compute; reflexivity|]. vm_compute. discriminate.
  Qed.

  Example C127_refused_ex : snd (dec_hp (DDict [("type", dstr "constant"); ("name", dstr "c"); ("value", dint 1); ("log", DVal (VBool true))])) = Err TypeError /\
    snd (dec_hp (DDict [("type", dstr "constant"); ("name", dstr "c")])) = Err TypeError /\
    snd (dec_cond (c_space old_read) (DDict [("type", dstr "EQ"); ("child", dstr "n"); ("parent", dstr "z"); ("value", dint 1)])) = Err KeyError.
  Proof.
    split; [|split].
    - apply (C127_unknown_key "constant" ["name"; "value"] _ "log"); try reflexivity; cbn; intuition discriminate.
    - apply (C127_missing_key "constant" ["name"; "value"] _ "value"); try reflexivity; cbn; intuition discriminate.
    - apply (C127_dangling _ _ "EQ" "parent" "z"); try reflexivity; try (cbn; tauto). intros k' [<-|[<-|[]]]; eexists; reflexivity.
  Qed.
End C127_witness.
