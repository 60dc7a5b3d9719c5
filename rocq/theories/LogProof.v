(** * LogProof: balanced skeletons *)
From Coq Require Import String.
From Verif Require Import Base LogModel.
Set Implicit Arguments.

Definition kind_eqb (a b : kind) : bool :=
  match a, b with Solver, Solver | Func, Func | Util, Util => true | _, _ => false end.
Definition stk_eqb (a b : list kind) : bool := (length a =? length b) && forallb (fun p => kind_eqb (fst p) (snd p)) (combine a b).
Lemma stk_eqb_ok a b : stk_eqb a b = true -> a = b.
Proof.
  unfold stk_eqb. revert b. induction a as [|x a IH]; destruct b as [|y b]; cbn [length combine forallb Nat.eqb fst snd andb]; auto; try discriminate.
  intros H. apply andb_prop in H. destruct H as [H1 H2]. apply andb_prop in H2. destruct H2 as [H2 H3].
  f_equal; [destruct x, y; cbn in H2; congruence|]. apply IH. rewrite H1, H3. auto.
Qed.

(** possible ends of a piece of code with the calls of this function left open; None: a pop that is not ours *)
Section Ex.
  Variable L : nat.
  Definition res := list (outcome * list kind).
  Fixpoint ex (c : cmd) (o : list kind) : option res :=
    let fix exs (cs : list cmd) (o : list kind) : option res :=
      match cs with
      | [] => Some [(Go, o)]
      | c :: cs =>
          match ex c o with
          | None => None
          | Some l =>
              (fix each (l : res) : option res :=
                 match l with
                 | [] => Some []
                 | (Go, o1) :: l => match exs cs o1, each l with Some a, Some b => Some (a ++ b) | _, _ => None end
                 | p :: l => match each l with Some b => Some (p :: b) | None => None end
                 end) l
          end
      end in
    match c with
    | In k => Some [(Go, if enabled L k then k :: o else o)]
    | Out k => if enabled L k then match o with k' :: o' => if kind_eqb k k' then Some [(Go, o')] else None | [] => None end
               else Some [(Go, o)]
    | Any => Some [(Go, o); (Thr, o)]
    | If a b => match exs a o, exs b o with Some x, Some y => Some (x ++ y) | _, _ => None end
    | Loop a =>
        match exs a o with
        | None => None
        | Some l =>
            if forallb (fun p => match fst p with Go | Lv => stk_eqb (snd p) o | _ => true end) l
            then Some ((Go, o) :: filter (fun p => match fst p with Go | Lv => false | _ => true end) l)
            else None
        end
    | Return => Some [(Ret, o)] | Throw => Some [(Thr, o)] | Leave => Some [(Lv, o)]
    end.
  Fixpoint exs (cs : list cmd) (o : list kind) : option res :=
    match cs with
    | [] => Some [(Go, o)]
    | c :: cs =>
        match ex c o with
        | None => None
        | Some l =>
            (fix each (l : res) : option res :=
               match l with
               | [] => Some []
               | (Go, o1) :: l => match exs cs o1, each l with Some a, Some b => Some (a ++ b) | _, _ => None end
               | p :: l => match each l with Some b => Some (p :: b) | None => None end
               end) l
        end
    end.
  Definition ok (f : func) : bool :=
    match exs (f_body f) [] with
    | None => false
    | Some l => forallb (fun p => match p with
        | (Go, []) | (Ret, []) | (Thr, _) => true | _ => false end) l
    end.

  Lemma ex_if a b o : ex (If a b) o = match exs a o, exs b o with Some x, Some y => Some (x ++ y) | _, _ => None end.
  Proof. reflexivity. Qed.
  Lemma ex_loop a o : ex (Loop a) o =
    match exs a o with
    | None => None
    | Some l =>
        if forallb (fun p => match fst p with Go | Lv => stk_eqb (snd p) o | _ => true end) l
        then Some ((Go, o) :: filter (fun p => match fst p with Go | Lv => false | _ => true end) l)
        else None
    end.
  Proof. reflexivity. Qed.

  Lemma exs_cons c cs o R : exs (c :: cs) o = Some R -> exists l, ex c o = Some l /\
    (forall oc o1, List.In (oc, o1) l -> oc <> Go -> List.In (oc, o1) R) /\
    (forall o1, List.In (Go, o1) l -> exists R', exs cs o1 = Some R' /\ incl R' R).
  Proof.
    cbn [exs]. destruct (ex c o) as [l|]; [|discriminate]. intros H. exists l. split; auto.
    revert R H. induction l as [|[oc o1] l IH]; intros R H.
    - injection H as <-. split; intros; contradiction.
    - destruct oc.
      + destruct (exs cs o1) as [a|] eqn:Ea; [|discriminate].
        match type of H with context [match ?e with Some b => Some (a ++ b) | None => None end] => destruct e as [b|] eqn:Eb end; [|discriminate].
        injection H as <-. destruct (IH b eq_refl) as [I1 I2]. split.
        * intros oc o2 [E|Hin] Hne; [inversion E; subst; contradiction|]. apply in_or_app. right. eauto.
        * intros o2 [E|Hin].
          -- injection E as <-. exists a. split; auto. intros x Hx. apply in_or_app. auto.
          -- destruct (I2 o2 Hin) as (R' & E1 & E2). exists R'. split; auto. intros x Hx. apply in_or_app. right. auto.
      + match type of H with context [match ?e with Some b => _ | None => None end] => destruct e as [b|] eqn:Eb end; [|discriminate].
        injection H as <-. destruct (IH b eq_refl) as [I1 I2]. split.
        * intros oc o2 [E|Hin] Hne; [left; auto|right; eauto].
        * intros o2 [E|Hin]; [discriminate|]. destruct (I2 o2 Hin) as (R' & E1 & E2). exists R'. split; auto. intros x Hx. right. auto.
      + match type of H with context [match ?e with Some b => _ | None => None end] => destruct e as [b|] eqn:Eb end; [|discriminate].
        injection H as <-. destruct (IH b eq_refl) as [I1 I2]. split.
        * intros oc o2 [E|Hin] Hne; [left; auto|right; eauto].
        * intros o2 [E|Hin]; [discriminate|]. destruct (I2 o2 Hin) as (R' & E1 & E2). exists R'. split; auto. intros x Hx. right. auto.
      + match type of H with context [match ?e with Some b => _ | None => None end] => destruct e as [b|] eqn:Eb end; [|discriminate].
        injection H as <-. destruct (IH b eq_refl) as [I1 I2]. split.
        * intros oc o2 [E|Hin] Hne; [left; auto|right; eauto].
        * intros o2 [E|Hin]; [discriminate|]. destruct (I2 o2 Hin) as (R' & E1 & E2). exists R'. split; auto. intros x Hx. right. auto.
      + match type of H with context [match ?e with Some b => _ | None => None end] => destruct e as [b|] eqn:Eb end; [|discriminate].
        injection H as <-. destruct (IH b eq_refl) as [I1 I2]. split.
        * intros oc o2 [E|Hin] Hne; [left; auto|right; eauto].
        * intros o2 [E|Hin]; [discriminate|]. destruct (I2 o2 Hin) as (R' & E1 & E2). exists R'. split; auto. intros x Hx. right. auto.
  Qed.
End Ex.

Scheme run_mut := Induction for run Sort Prop
  with run1_mut := Induction for run1 Sort Prop
  with calls_mut := Induction for some_calls Sort Prop
  with call_mut := Induction for call Sort Prop.
Combined Scheme run_all from run_mut, run1_mut, calls_mut, call_mut.

(** the logger shows exactly the active calls and has written exactly the lines wanted *)
Definition synced (g : ghost) (lg : logger) : Prop := calls lg = act g /\ lines lg = want g.

Section Sound.
  Variable T : func -> Prop.
  Variable L : nat.
  Hypothesis Tok : forall f, T f -> ok L f = true.

  (** [o]: the kinds this function has open; only enabled ones are recorded *)
  Definition mine (nm : string) (base : list string) (o : list kind) : list string := base ++ repeat nm (length o).
  Definition good (nm : string) (base : list string) (oc : outcome) (o : list kind) (g : ghost) (lg : logger) : Prop :=
    level lg = L /\ lines lg = want g /\ (oc <> Thr -> calls lg = act g /\ act g = mine nm base o).
  Definition leads (nm : string) (base : list string) (R : res) (oc : outcome) (g : ghost) (lg : logger) : Prop :=
    oc <> Crash /\ exists o', List.In (oc, o') R /\ good nm base oc o' g lg.

  Lemma mine_snoc nm base k o : mine nm base o ++ [nm] = mine nm base (k :: o).
  Proof.
    unfold mine. cbn [length]. rewrite <- app_assoc. f_equal. change [nm] with (repeat nm 1). rewrite <- repeat_app.
    f_equal. lia.
  Qed.
  Lemma mine_pop nm base k o : removelast (mine nm base (k :: o)) = mine nm base o.
  Proof. rewrite <- mine_snoc. apply removelast_last. Qed.
  Lemma mine_ne nm base k o : mine nm base (k :: o) <> [].
  Proof. rewrite <- mine_snoc. intros H. apply app_eq_nil in H. destruct H. discriminate. Qed.

  Lemma leads_incl nm base R R' oc g lg : incl R R' -> leads nm base R oc g lg -> leads nm base R' oc g lg.
  Proof. intros HI (H1 & o' & H2 & H3). split; auto. exists o'. split; auto. Qed.

  Theorem sound :
    (forall nm cs g lg oc g' lg', run T nm cs g lg oc g' lg' -> forall base o R, exs L cs o = Some R ->
       good nm base Go o g lg -> leads nm base R oc g' lg') /\
    (forall nm c g lg oc g' lg', run1 T nm c g lg oc g' lg' -> forall base o R, ex L c o = Some R ->
       good nm base Go o g lg -> leads nm base R oc g' lg') /\
    (forall g lg oc g' lg', some_calls T g lg oc g' lg' -> level lg = L -> synced g lg ->
       (oc = Go \/ oc = Thr) /\ level lg' = L /\ lines lg' = want g' /\ (oc = Go -> calls lg' = act g' /\ act g' = act g)) /\
    (forall f g lg oc g' lg', call T f g lg oc g' lg' -> level lg = L -> synced g lg ->
       (oc = Ret \/ oc = Thr) /\ level lg' = L /\ lines lg' = want g' /\ (oc = Ret -> calls lg' = act g' /\ act g' = act g)).
  Proof.
    apply run_all.
    - intros nm g lg base o R E G. injection E as <-. split; [discriminate|]. exists o. split; [left; auto|auto].
    - intros nm c cs g lg g1 lg1 oc g2 lg2 _ IH1 _ IH2 base o R E G.
      destruct (@exs_cons L c cs o R E) as (l & El & _ & HGo). destruct (IH1 base o l El G) as (_ & o1 & Hin & G1).
      destruct (HGo o1 Hin) as (R' & ER & HI). eapply leads_incl; [exact HI|]. apply (IH2 base o1 R' ER). exact G1.
    - intros nm c cs g lg oc g1 lg1 _ IH1 Hne base o R E G.
      destruct (@exs_cons L c cs o R E) as (l & El & HS & _). destruct (IH1 base o l El G) as (Hc & o1 & Hin & G1).
      split; auto. exists o1. split; auto.
    - (* in *)
      intros nm k g lg base o R E (H1 & H2 & H3). cbn [ex] in E. injection E as <-. destruct (H3 ltac:(discriminate)) as [H4 H5].
      split; [discriminate|]. eexists. split; [left; reflexivity|].
      unfold ghost_in, log_in. rewrite H1. destruct (enabled L k) eqn:Een.
      + cbn [level lines calls act want]. split; auto. split.
        * destruct k; rewrite ?H2, ?H4; auto.
        * intros _. rewrite H4. split; auto. rewrite H5. apply mine_snoc.
      + split; auto.
    - (* out *)
      intros nm k g lg lg' EO base o R E (H1 & H2 & H3). destruct (H3 ltac:(discriminate)) as [H4 H5].
      unfold log_out in EO. cbn [ex] in E. unfold ghost_out. rewrite H1 in *. destruct (enabled L k) eqn:Een.
      + destruct o as [|k' o']; [discriminate|]. destruct (kind_eqb k k'); [|discriminate]. injection E as <-.
        split; [discriminate|]. exists o'. split; [left; auto|].
        destruct (calls lg) as [|c0 cs0] eqn:Ec; [discriminate|]. injection EO as <-. cbn [level lines calls act want].
        split; auto. rewrite H2, <- H4. split; auto. intros _. split; auto. rewrite H4, H5. apply mine_pop.
      + injection EO as <-. injection E as <-. split; [discriminate|]. exists o. split; [left; auto|]. split; auto.
    - intros nm k g lg EO base o R E (H1 & H2 & H3). destruct (H3 ltac:(discriminate)) as [H4 H5].
      unfold log_out in EO. cbn [ex] in E. rewrite H1 in *. destruct (enabled L k) eqn:Een; [|discriminate].
      destruct o as [|k' o']; [discriminate|]. rewrite H4, H5 in EO. exfalso.
      destruct (mine nm base (k' :: o')) eqn:Em; [|discriminate]. eapply mine_ne; eauto.
    - (* any *)
      intros nm g lg oc g' lg' _ IH base o R E (H1 & H2 & H3). destruct (H3 ltac:(discriminate)) as [H4 H5].
      cbn [ex] in E. injection E as <-. destruct (IH H1 (conj H4 H2)) as (Ho & L1 & L2 & L3).
      destruct Ho as [-> | ->].
      + destruct (L3 eq_refl) as [L4 L5]. split; [discriminate|]. exists o. split; [left; auto|]. split; auto. split; auto.
        intros _. split; auto. rewrite L5. auto.
      + split; [discriminate|]. exists o. split; [right; left; auto|]. split; auto. split; auto. intros HT. contradiction.
    - intros nm a b g lg oc g' lg' _ IH base o R E G. rewrite ex_if in E.
      destruct (exs L a o) as [x|] eqn:Ea; [|discriminate]. destruct (exs L b o) as [y|]; [|discriminate]. injection E as <-.
      eapply leads_incl; [|apply (IH base o x Ea G)]. intros z Hz. apply in_or_app. auto.
    - intros nm a b g lg oc g' lg' _ IH base o R E G. rewrite ex_if in E.
      destruct (exs L a o) as [x|]; [|discriminate]. destruct (exs L b o) as [y|] eqn:Eb; [|discriminate]. injection E as <-.
      eapply leads_incl; [|apply (IH base o y Eb G)]. intros z Hz. apply in_or_app. auto.
    - (* loop end *)
      intros nm a g lg base o R E G. rewrite ex_loop in E. destruct (exs L a o) as [l|]; [|discriminate].
      destruct (forallb _ l); [|discriminate]. injection E as <-. split; [discriminate|]. exists o. split; [left; auto|auto].
    - (* loop step *)
      intros nm a g lg o1 g1 lg1 oc g2 lg2 _ IH1 Ho _ IH2 base o R E G. assert (E' := E). rewrite ex_loop in E.
      destruct (exs L a o) as [l|] eqn:Ea; [|discriminate]. destruct (forallb _ l) eqn:Ef; [|discriminate]. injection E as <-.
      destruct (IH1 base o l Ea G) as (_ & o' & Hin & G1). rewrite forallb_forall in Ef. specialize (Ef _ Hin). cbn [fst snd] in Ef.
      assert (o' = o) by (apply stk_eqb_ok; destruct Ho; subst; auto). subst o'.
      apply (IH2 base o _ E'). destruct G1 as (A & B & C). split; auto. split; auto. intros _. apply C. destruct Ho; subst; discriminate.
    - (* loop stop *)
      intros nm a g lg oc g1 lg1 _ IH H1 H2 base o R E G. rewrite ex_loop in E.
      destruct (exs L a o) as [l|] eqn:Ea; [|discriminate]. destruct (forallb _ l) eqn:Ef; [|discriminate]. injection E as <-.
      destruct (IH base o l Ea G) as (Hc & o' & Hin & G1). split; auto. exists o'. split; auto. right. apply filter_In. split; auto.
      cbn. destruct oc; auto; contradiction.
    - intros nm g lg base o R E G. injection E as <-. split; [discriminate|]. exists o. split; [left; auto|]. destruct G as (A & B & C). split; auto. split; auto. intros _. apply C. discriminate.
    - intros nm g lg base o R E G. injection E as <-. split; [discriminate|]. exists o. split; [left; auto|]. destruct G as (A & B & C). split; [auto|]. split; [auto|]. intros H. contradiction.
    - intros nm g lg base o R E G. injection E as <-. split; [discriminate|]. exists o. split; [left; auto|]. destruct G as (A & B & C). split; auto. split; auto. intros _. apply C. discriminate.
    - (* calls *)
      intros g lg HL [H1 H2]. split; auto.
    - intros f g lg g1 lg1 oc g2 lg2 _ IH1 _ IH2 HL HS. destruct (IH1 HL HS) as (_ & L1 & L2 & L3). destruct (L3 eq_refl) as [L4 L5].
      destruct (IH2 L1 (conj L4 L2)) as (Ho & M1 & M2 & M3). split; auto. split; auto. split; auto. intros E. destruct (M3 E). split; auto. congruence.
    - intros f g lg oc g1 lg1 _ IH Hne HL HS. destruct (IH HL HS) as ([-> | ->] & L1 & L2 & _); [contradiction|].
      repeat (split; [solve [auto]|]). discriminate.
    - (* call returns *)
      intros f g lg oc g1 lg1 g2 lg2 HT _ IH1 Ho _ IH2 HL HS. assert (K := Tok HT). unfold ok in K.
      destruct (exs L (f_body f) []) as [R|] eqn:ER; [|discriminate]. rewrite forallb_forall in K.
      assert (G : good (f_name f) (act g) Go [] g lg).
      { destruct HS. split; auto. split; auto. intros _. split; auto. unfold mine. cbn. now rewrite app_nil_r. }
      destruct (IH1 (act g) [] R ER G) as (_ & o' & Hin & (A & B & C)). specialize (K _ Hin).
      assert (o' = []) by (destruct Ho; subst oc; destruct o'; auto; discriminate). subst o'.
      destruct C as [C1 C2]; [destruct Ho; subst; discriminate|]. unfold mine in C2. cbn in C2. rewrite app_nil_r in C2.
      destruct (IH2 A) as (_ & M1 & M2 & M3); [split; cbn [act want]; congruence|].
      split; [auto|]. split; [auto|]. split; [auto|]. intros _. destruct (M3 eq_refl) as [M4 M5]. split; auto.
    - (* call does not return *)
      intros f g lg oc g1 lg1 HT _ IH1 Ho HL HS. assert (K := Tok HT). unfold ok in K.
      destruct (exs L (f_body f) []) as [R|] eqn:ER; [|discriminate].
      assert (G : good (f_name f) (act g) Go [] g lg).
      { destruct HS. split; auto. split; auto. intros _. split; auto. unfold mine. cbn. now rewrite app_nil_r. }
      destruct (IH1 (act g) [] R ER G) as (Hc & o' & Hin & (A & B & C)). destruct Ho as [->|]; [|contradiction].
      repeat (split; [solve [auto]|]). discriminate.
  Qed.
End Sound.

(** ** executions found by computation (loops not entered, no nested calls) *)
Section Real.
  Variable nm : string.
  Fixpoint real (c : cmd) (lg : logger) : list (outcome * logger) :=
    let fix reals (cs : list cmd) (lg : logger) : list (outcome * logger) :=
      match cs with
      | [] => [(Go, lg)]
      | c :: cs => flat_map (fun p => match fst p with Go => reals cs (snd p) | _ => [p] end) (real c lg)
      end in
    match c with
    | In k => [(Go, log_in k nm lg)]
    | Out k => match log_out k lg with Some lg' => [(Go, lg')] | None => [(Crash, lg)] end
    | Any => [(Go, lg)]
    | If a b => reals a lg ++ reals b lg
    | Loop a => [(Go, lg)]
    | Return => [(Ret, lg)] | Throw => [(Thr, lg)] | Leave => [(Lv, lg)]
    end.
  Fixpoint reals (cs : list cmd) (lg : logger) : list (outcome * logger) :=
    match cs with
    | [] => [(Go, lg)]
    | c :: cs => flat_map (fun p => match fst p with Go => reals cs (snd p) | _ => [p] end) (real c lg)
    end.
  Lemma real_if a b lg : real (If a b) lg = reals a lg ++ reals b lg.
  Proof. reflexivity. Qed.

  Variable T : func -> Prop.
  Fixpoint sz (c : cmd) : nat :=
    let fix szs (cs : list cmd) := match cs with [] => 0 | c :: cs => sz c + szs cs end in
    match c with If a b => S (szs a + szs b) | Loop a => S (szs a) | _ => 1 end.
  Fixpoint szs (cs : list cmd) := match cs with [] => 0 | c :: cs => sz c + szs cs end.

  Lemma sz_pos c : 1 <= sz c.
  Proof. destruct c; cbn; lia. Qed.

  Lemma real_run n :
    (forall c, sz c <= n -> forall lg oc lg', List.In (oc, lg') (real c lg) -> forall g, exists g', run1 T nm c g lg oc g' lg') /\
    (forall cs, szs cs <= n -> forall lg oc lg', List.In (oc, lg') (reals cs lg) -> forall g, exists g', run T nm cs g lg oc g' lg').
  Proof.
    induction n as [|n [IH1 IH2]].
    - split; [intros c H; assert (P := sz_pos c); lia|]. intros cs H lg oc lg' Hin g. destruct cs as [|c cs].
      + destruct Hin as [E|[]]. injection E as <- <-. exists g. constructor.
      + cbn in H. assert (P := sz_pos c). lia.
    - assert (C1 : forall c, sz c <= S n -> forall lg oc lg', List.In (oc, lg') (real c lg) -> forall g, exists g', run1 T nm c g lg oc g' lg').
      { intros c H lg oc lg' Hin g. destruct c as [k|k| |a b|a| | |].
        - destruct Hin as [E|[]]. injection E as <- <-. eexists. apply r_in.
        - cbn [real] in Hin. destruct (log_out k lg) as [l|] eqn:E0; destruct Hin as [E|[]]; injection E as <- <-.
          + eexists. apply r_out. eauto.
          + eexists. apply r_out_ub. auto.
        - destruct Hin as [E|[]]. injection E as <- <-. exists g. apply r_any. constructor.
        - rewrite real_if in Hin. change (sz (If a b)) with (S (szs a + szs b)) in H. apply in_app_or in Hin. destruct Hin as [Hin|Hin].
          + destruct (IH2 a ltac:(lia) lg oc lg' Hin g) as (g' & R). exists g'. apply r_then. auto.
          + destruct (IH2 b ltac:(lia) lg oc lg' Hin g) as (g' & R). exists g'. apply r_else. auto.
        - destruct Hin as [E|[]]. injection E as <- <-. exists g. apply r_loop_end.
        - destruct Hin as [E|[]]. injection E as <- <-. exists g. apply r_return.
        - destruct Hin as [E|[]]. injection E as <- <-. exists g. apply r_throw.
        - destruct Hin as [E|[]]. injection E as <- <-. exists g. apply r_leave. }
      split; auto.
      induction cs as [|c cs IHcs]; intros H lg oc lg' Hin g.
      + destruct Hin as [E|[]]. injection E as <- <-. exists g. constructor.
      + cbn [szs] in H. cbn [reals] in Hin. apply in_flat_map in Hin. destruct Hin as ([oc1 lg1] & H1 & H2). cbn [fst snd] in H2.
        destruct (C1 c ltac:(lia) lg oc1 lg1 H1 g) as (g1 & R1). assert (P := sz_pos c).
        destruct oc1.
        * destruct (IHcs ltac:(lia) lg1 oc lg' H2 g1) as (g2 & R2). exists g2. eapply run_cons; eauto.
        * destruct H2 as [E|[]]. injection E as <- <-. exists g1. apply run_stop; auto. discriminate.
        * destruct H2 as [E|[]]. injection E as <- <-. exists g1. apply run_stop; auto. discriminate.
        * destruct H2 as [E|[]]. injection E as <- <-. exists g1. apply run_stop; auto. discriminate.
        * destruct H2 as [E|[]]. injection E as <- <-. exists g1. apply run_stop; auto. discriminate.
  Qed.
End Real.

Definition start (L : nat) (c : list string) : logger := {| level := L; calls := c; lines := [] |}.
Fixpoint path_eqb (a b : list string) : bool :=
  match a, b with [], [] => true | x :: a, y :: b => String.eqb x y && path_eqb a b | _, _ => false end.
Lemma path_eqb_refl a : path_eqb a a = true.
Proof. induction a; cbn; auto. rewrite String.eqb_refl, IHa. auto. Qed.

(** some execution of f returns with a different stack, or pops an empty stack *)
Definition breaks (L : nat) (c : list string) (f : func) : bool :=
  existsb (fun p => match fst p with
    | Go | Ret => negb (path_eqb (calls (snd p)) c)
    | Crash => true | _ => false end) (reals (f_name f) (f_body f) (start L c)).
Definition throws (L : nat) (c : list string) (f : func) : bool :=
  existsb (fun p => match fst p with
    | Thr => negb (path_eqb (calls (snd p)) c) | _ => false end) (reals (f_name f) (f_body f) (start L c)).

Lemma breaks_ok (T : func -> Prop) L c f g : T f -> breaks L c f = true -> exists o g' lg',
  call T f g (start L c) o g' lg' /\ (o = Crash \/ o = Ret /\ calls lg' <> c).
Proof.
  intros HT H. unfold breaks in H. apply existsb_exists in H. destruct H as ([oc lg'] & Hin & H). cbn [fst snd] in H.
  destruct (@real_run (f_name f) T (szs (f_body f))) as [_ R]. destruct (R _ (Nat.le_refl _) _ _ _ Hin g) as (g' & Hr).
  assert (D : negb (path_eqb (calls lg') c) = true -> calls lg' <> c).
  { intros E1 E2. rewrite E2, path_eqb_refl in E1. discriminate. }
  destruct oc; try discriminate.
  - exists Ret, {| act := act g; want := want g' |}, lg'. split; [|right; auto].
    eapply call_ret; [exact HT|exact Hr|auto|constructor].
  - exists Ret, {| act := act g; want := want g' |}, lg'. split; [|right; auto].
    eapply call_ret; [exact HT|exact Hr|auto|constructor].
  - eexists Crash, _, lg'. split; [|left; auto]. eapply call_other; [exact HT|exact Hr|auto].
Qed.
Lemma throws_ok (T : func -> Prop) L c f g : T f -> throws L c f = true -> exists g' lg',
  call T f g (start L c) Thr g' lg' /\ calls lg' <> c.
Proof.
  intros HT H. unfold throws in H. apply existsb_exists in H. destruct H as ([oc lg'] & Hin & H). cbn [fst snd] in H.
  destruct (@real_run (f_name f) T (szs (f_body f))) as [_ R]. destruct (R _ (Nat.le_refl _) _ _ _ Hin g) as (g' & Hr).
  destruct oc; try discriminate. eexists _, lg'. split; [eapply call_other; [exact HT|exact Hr|auto]|].
  intros E. rewrite E, path_eqb_refl in H. discriminate.
Qed.
