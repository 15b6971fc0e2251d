(** The tree of wires and the polygons: what every operation does to it. *)
From stdpp Require Import gmap list relations.
From Coq Require Import Lia.
From Verif Require Import Decomp_Model Decomp_Spec Decomp_Perm Decomp_Surgery.
Local Open Scope nat_scope.

Notation pmap := (gmap nat (option nat)).
(** Parents [P] and polygons [L] of wires, outer wires [O] of polygons. *)
Record nest (P L : pmap) (O : gmap nat nat) : Prop := Nest {
  n_dom w : is_Some (P !! w) <-> is_Some (L !! w);
  n_out g o : O !! g = Some o -> L !! o = Some (Some g);
  n_wire w : is_Some (P !! w) -> exists g o, L !! w = Some (Some g) /\ O !! g = Some o /\ (o = w \/ P !! w = Some (Some o));
  n_child c o g : P !! c = Some (Some o) -> O !! g = Some o -> L !! c = Some (Some g);
  n_up w : is_Some (P !! w) -> up P w;
  n_root : P !! 0 = Some None;
  n_out0 : O !! 0 = Some 0 }.

Lemma up_next P x q : up P x -> x <> 0 -> P !! x = Some (Some q) -> up P q.
Proof. intros U D E. inversion U as [|? y ? E' U']; subst; [done|]. assert (y = q) as -> by congruence. done. Qed.

Section Nest.
Context (P L : pmap) (O : gmap nat nat).
Hypothesis N : nest P L O.
Lemma n_roots w : P !! w = Some None -> w = 0.
Proof. intros E. assert (U := n_up _ _ _ N w ltac:(eauto)). inversion U; subst; [done|]. congruence. Qed.
Lemma n_ne c q : P !! c = Some (Some q) -> c <> 0.
Proof. intros E ->. rewrite (n_root _ _ _ N) in E. done. Qed.
Lemma n_par c q : P !! c = Some (Some q) -> is_Some (P !! q).
Proof.
  intros E. assert (U := up_next _ _ _ (n_up _ _ _ N c ltac:(eauto)) (n_ne _ _ E) E). inversion U; subst; [|eauto]. rewrite (n_root _ _ _ N). eauto.
Qed.
Lemma n_self c : P !! c <> Some (Some c).
Proof.
  intros E. assert (U := n_up _ _ _ N c ltac:(eauto)). unfold up in U. revert E. revert c U.
  apply (rtc_ind_l (fun c => P !! c = Some (Some c) -> False)).
  - rewrite (n_root _ _ _ N). done.
  - intros x y E U IH E'. assert (x = y) as -> by congruence. by apply IH.
Qed.
Lemma out_live g o : O !! g = Some o -> is_Some (P !! o).
Proof. intros H. apply (n_dom _ _ _ N). rewrite (n_out _ _ _ N _ _ H). eauto. Qed.
Lemma out_inj g g' o : O !! g = Some o -> O !! g' = Some o -> g = g'.
Proof. intros H H'. apply (n_out _ _ _ N) in H, H'. congruence. Qed.
(** The parent of an outer wire is not an outer wire. *)
Lemma out_out g o g' o' : O !! g = Some o -> P !! o = Some (Some o') -> O !! g' <> Some o'.
Proof.
  intros H Hp H'. assert (X := n_child _ _ _ N _ _ _ Hp H'). assert (Y := n_out _ _ _ N _ _ H). assert (g = g') as -> by congruence.
  assert (o = o') as -> by congruence. by apply (n_self o').
Qed.
(** A wire that is not the outer wire of its polygon. *)
Lemma hole w g o : L !! w = Some (Some g) -> O !! g = Some o -> o <> w -> P !! w = Some (Some o) /\ forall g', O !! g' <> Some w.
Proof.
  intros Hl Ho D. assert (I : is_Some (P !! w)) by (apply (n_dom _ _ _ N); eauto). destruct (n_wire _ _ _ N _ I) as (g1 & o1 & A & B & C).
  assert (g1 = g) as -> by congruence. assert (o1 = o) as -> by congruence. destruct C as [?|C]; [done|]. split; [done|].
  intros g' H'. apply (n_out _ _ _ N) in H' as H''. congruence.
Qed.
Lemma out_hole w c : (forall g, O !! g <> Some w) -> P !! c = Some (Some w) -> exists g', L !! c = Some (Some g') /\ O !! g' = Some c.
Proof.
  intros Nw Hc. destruct (n_wire _ _ _ N c ltac:(eauto)) as (g1 & o1 & A & B & C).
  exists g1. split; [done|]. destruct C as [-> | C]; [done|]. assert (o1 = w) as -> by congruence. by apply Nw in B.
Qed.
Lemma in_P_ne w x : P !! w = None -> is_Some (P !! x) -> x <> w.
Proof. intros H [? ?] ->. congruence. Qed.
Lemma L_none w : P !! w = None -> L !! w = None.
Proof. intros H. apply eq_None_not_Some. rewrite <- (n_dom _ _ _ N), H. by intros []. Qed.
Lemma up_all P' : (forall x y, P !! x = Some (Some y) -> up P' y -> up P' x) -> forall x, is_Some (P !! x) -> up P' x.
Proof.
  intros H x I. assert (U := n_up _ _ _ N x I). clear I. unfold up in U. revert x U. apply (rtc_ind_l (up P')); [apply rtc_refl|].
  intros x y E _ IH. by apply (H x y).
Qed.

(** A new hole. *)
Lemma nest_new w g q : P !! w = None -> O !! g = Some q -> nest (<[w := Some q]> P) (<[w := Some g]> L) O.
Proof.
  intros F Hg. assert (Lw := L_none _ F).
  assert (Dq := in_P_ne _ _ F (out_live _ _ Hg)).
  assert (Do : forall g' o, O !! g' = Some o -> o <> w) by (intros g' o Ho; by apply (in_P_ne _ _ F), (out_live g')).
  assert (U : forall x, is_Some (P !! x) -> up (<[w := Some q]> P) x).
  { apply up_all. intros x y E U. eapply rtc_l; [|exact U]. cbn. by rewrite lookup_insert_ne by (intros <-; congruence). }
  constructor.
  - intros x. destruct (decide (x = w)) as [-> | D]; [rewrite !lookup_insert; split; eauto|]. rewrite !lookup_insert_ne by done. apply N.
  - intros g' o Ho. rewrite lookup_insert_ne by (intros <-; by apply (Do g' w)). by apply N.
  - intros x Hx. destruct (decide (x = w)) as [-> | D]; [rewrite !lookup_insert; eauto 6|]. rewrite !lookup_insert_ne in * by done. by apply N.
  - intros c o g' Hc Ho. destruct (decide (c = w)) as [-> | D].
    + rewrite lookup_insert in *. injection Hc as <-. f_equal. f_equal. by eapply out_inj.
    + rewrite lookup_insert_ne in * by done. by eapply (n_child _ _ _ N).
  - intros x Hx. destruct (decide (x = w)) as [-> | D]; [|apply U; by rewrite lookup_insert_ne in Hx].
    eapply rtc_l; [cbn; by rewrite lookup_insert|]. apply U. by eapply out_live.
  - rewrite lookup_insert_ne; [apply N|]. intros ->. assert (X := n_root _ _ _ N). congruence.
  - apply N.
Qed.

(** A hole without children is dropped. *)
Lemma nest_drop w g o : L !! w = Some (Some g) -> O !! g = Some o -> o <> w -> (forall c, P !! c <> Some (Some w)) -> nest (delete w P) (delete w L) O.
Proof.
  intros Hl Ho D Nc. destruct (hole _ _ _ Hl Ho D) as [Hp Nw].
  assert (D0 := n_ne _ _ Hp).
  assert (U : forall x, is_Some (P !! x) -> x <> w -> up (delete w P) x).
  { intros x I. assert (U := n_up _ _ _ N x I). clear I. unfold up in U. revert x U. apply (rtc_ind_l (fun x => x <> w -> up (delete w P) x)); [intros _; apply rtc_refl|].
    intros x y E _ IH Dx. eapply rtc_l; [cbn; by rewrite lookup_delete_ne|]. apply IH. intros ->. by apply (Nc x). }
  constructor.
  - intros x. destruct (decide (x = w)) as [-> | Dx]; [rewrite !lookup_delete; split; by intros []|]. rewrite !lookup_delete_ne by done. apply N.
  - intros g' o' Ho'. rewrite lookup_delete_ne by (intros <-; by apply (Nw g')). by apply N.
  - intros x Hx. destruct (decide (x = w)) as [-> | Dx]; [rewrite lookup_delete in Hx; by destruct Hx|]. rewrite !lookup_delete_ne in * by done. by apply N.
  - intros c o' g' Hc Ho'. destruct (decide (c = w)) as [-> | Dx]; [by rewrite lookup_delete in Hc|]. rewrite lookup_delete_ne in * by done. by eapply (n_child _ _ _ N).
  - intros x Hx. destruct (decide (x = w)) as [-> | Dx]; [rewrite lookup_delete in Hx; by destruct Hx|]. apply U; [|done]. by rewrite lookup_delete_ne in Hx.
  - rewrite lookup_delete_ne by done. apply N.
  - apply N.
Qed.

(** Two wires of a polygon become one. *)
Lemma nest_join P' g o keep rm up' : L !! keep = Some (Some g) -> L !! rm = Some (Some g) -> O !! g = Some o -> keep <> rm -> o <> rm ->
  (o = keep /\ P !! keep = Some up' /\ keep <> 0 \/ o <> keep /\ up' = Some keep) ->
  (forall c, c <> rm -> P' !! c = if decide (P !! c = Some (Some rm)) then Some up' else P !! c) -> P' !! rm = None ->
  nest P' (delete rm L) O.
Proof.
  intros Lk Lr Ho D Dr U HP HPr. destruct (hole _ _ _ Lr Ho Dr) as [Pr Nr]. assert (D0 := n_ne _ _ Pr).
  assert (K : exists u, up' = Some u /\ forall x, is_Some (P !! x) -> (x <> rm -> up P' x) /\ (x = rm -> up P' u)).
  { destruct U as [(-> & Pk & Dk)|[Dk ->]].
    - destruct up' as [u|]; [|by apply n_roots in Pk]. exists u. split; [done|]. intros x I. assert (U := n_up _ _ _ N x I). clear I. unfold up in U. revert x U.
      apply (rtc_ind_l (fun x => (x <> rm -> up P' x) /\ (x = rm -> up P' u))); [split; [intros _; apply rtc_refl|intros <-; done]|].
      intros x y E _ [IH1 IH2]. split.
      + intros Dx. specialize (HP x Dx). destruct (decide _) as [E'|E'] in HP.
        * eapply rtc_l; [exact HP|]. apply IH2. congruence.
        * eapply rtc_l; [cbn; rewrite HP; exact E|]. apply IH1. intros ->. done.
      + intros ->. assert (y = keep) as -> by congruence. specialize (IH1 D). apply (up_next P' keep); [done|done|].
        rewrite HP by done. by destruct (decide _).
    - exists keep. split; [done|]. destruct (hole _ _ _ Lk Ho Dk) as [Pk Nk].
      intros x I. assert (U := n_up _ _ _ N x I). clear I. unfold up in U. revert x U.
      apply (rtc_ind_l (fun x => (x <> rm -> up P' x) /\ (x = rm -> up P' keep))); [split; [intros _; apply rtc_refl|intros <-; done]|].
      intros x y E _ [IH1 IH2]. split.
      + intros Dx. specialize (HP x Dx). destruct (decide _) as [E'|E'] in HP.
        * eapply rtc_l; [exact HP|]. apply IH2. congruence.
        * eapply rtc_l; [cbn; rewrite HP; exact E|]. apply IH1. intros ->. done.
      + intros ->. assert (y = o) as -> by congruence. eapply rtc_l; [|apply IH1; congruence]. cbn. rewrite HP by done.
        rewrite decide_False; [done|congruence]. }
  destruct K as (u & -> & K).
  assert (Du : u <> rm).
  { intros ->. assert (X : up P' rm) by (by apply (proj2 (K rm ltac:(eauto)))). inversion X; subst; [done|congruence]. }
  constructor.
  - intros x. destruct (decide (x = rm)) as [-> | Dx]; [rewrite lookup_delete, HPr; split; by intros []|]. rewrite lookup_delete_ne by done.
    rewrite HP by done. rewrite <- (n_dom _ _ _ N). destruct (decide _) as [E|E]; [rewrite E; split; eauto|done].
  - intros g' o' Ho'. rewrite lookup_delete_ne by (intros <-; by apply (Nr g')). by apply N.
  - intros x Hx. assert (Dx : x <> rm) by (intros ->; rewrite HPr in Hx; by destruct Hx). rewrite lookup_delete_ne by done.
    rewrite HP in * by done. destruct (decide _) as [E|E].
    + destruct (out_hole rm x Nr E) as (g' & A & B). eauto 6.
    + by apply N.
  - intros c o' g' Hc Ho'. assert (Dx : c <> rm) by congruence. rewrite lookup_delete_ne by done. rewrite HP in Hc by done. destruct (decide _) as [E|E].
    + injection Hc as <-. exfalso. destruct U as [(-> & Pk & Dk)|[Dk Eu]].
      * by eapply (out_out g keep g' u).
      * injection Eu as ->. destruct (hole _ _ _ Lk Ho Dk) as [_ X]. by apply (X g').
    + by eapply (n_child _ _ _ N).
  - intros x Hx. assert (Dx : x <> rm) by (intros ->; rewrite HPr in Hx; by destruct Hx). apply K; [|done]. rewrite HP in Hx by done.
    destruct (decide _) as [E|E]; eauto.
  - rewrite HP by done. rewrite (n_root _ _ _ N). by destruct (decide _).
  - apply N.
Qed.

(** The outer wire of a polygon is split; the children in [sel] go to the new part. *)
Lemma nest_split_outer (P' L' : pmap) g o q0 left n (sel : list nat) : O !! g = Some o -> P !! o = Some (Some q0) -> P !! left = None -> O !! n = None ->
  (forall c, c ∈ sel -> P !! c = Some (Some o) /\ P' !! c = Some (Some left) /\ L' !! c = Some (Some n)) ->
  (forall c, c ∉ sel -> P' !! c = <[left := Some q0]> P !! c /\ L' !! c = <[left := Some n]> L !! c) ->
  nest P' L' (<[n := left]> O).
Proof.
  intros Ho Po Fl Fn Sel Nsel. assert (Lf := L_none _ Fl).
  assert (Dl : forall g' o', O !! g' = Some o' -> o' <> left) by (intros g' o' Ho'; by apply (in_P_ne _ _ Fl), (out_live g')).
  assert (Sl : left ∉ sel) by (intros H; apply Sel in H as [H _]; congruence).
  destruct (Nsel _ Sl) as [Pl Ll]. rewrite lookup_insert in Pl, Ll.
  assert (S1 : forall c, c ∉ sel -> c <> left -> P' !! c = P !! c /\ L' !! c = L !! c).
  { intros c C D. destruct (Nsel _ C) as [X Y]. rewrite lookup_insert_ne in X by done. by rewrite lookup_insert_ne in Y by done. }
  assert (So : o ∉ sel). { intros H. apply Sel in H as [H _]. by apply (n_self o). }
  assert (Po' : P' !! o = Some (Some q0)). { destruct (S1 o So ltac:(by eapply Dl)) as [X _]. congruence. }
  assert (Dg : forall g', is_Some (O !! g') -> g' <> n) by (intros g' [? ?] ->; congruence).
  assert (U : forall x, is_Some (P !! x) -> up P' x).
  { apply up_all. intros x y E U. destruct (decide (x ∈ sel)) as [C|C].
    - destruct (Sel _ C) as (X & Y & _). assert (y = o) as -> by congruence. eapply rtc_l; [exact Y|]. eapply rtc_l; [exact Pl|].
      apply (up_next P' o); [done|by eapply n_ne|done].
    - eapply rtc_l; [|exact U]. cbn. destruct (S1 x C) as [X _]; [congruence|]. congruence. }
  constructor.
  - intros x. destruct (decide (x ∈ sel)) as [C|C]; [destruct (Sel _ C) as (_ & -> & ->); split; eauto|].
    destruct (decide (x = left)) as [-> | D]; [rewrite Pl, Ll; split; eauto|]. destruct (S1 x C D) as [-> ->]. apply N.
  - intros g' o' Ho'. apply lookup_insert_Some in Ho' as [[<- <-]|[D Ho']]; [done|].
    assert (C : o' ∉ sel). { intros H. apply Sel in H as [H _]. by eapply (out_out g' o' g o). }
    destruct (S1 o' C ltac:(by eapply Dl)) as [_ ->]. by apply N.
  - intros x Hx. destruct (decide (x ∈ sel)) as [C|C].
    { destruct (Sel _ C) as (_ & -> & ->). exists n, left. rewrite lookup_insert. auto. }
    destruct (decide (x = left)) as [-> | D]; [exists n, left; rewrite lookup_insert; auto|]. destruct (S1 x C D) as [X Y]. rewrite X, Y in *.
    destruct (n_wire _ _ _ N _ Hx) as (g1 & o1 & A & B & E). exists g1, o1. rewrite lookup_insert_ne by (apply not_eq_sym, Dg; eauto). done.
  - intros c o' g' Hc Ho'. destruct (decide (c ∈ sel)) as [C|C].
    { destruct (Sel _ C) as (X & Y & Z). rewrite Z. apply lookup_insert_Some in Ho' as [[<- <-]|[D Ho']]; [done|]. exfalso.
      apply (Dl g' o' Ho'). congruence. }
    destruct (decide (c = left)) as [-> | D].
    { exfalso. assert (o' = q0) as -> by congruence. apply lookup_insert_Some in Ho' as [[<- <-]|[D Ho']].
      - apply n_par in Po. rewrite Fl in Po. by destruct Po.
      - by eapply (out_out g o g' q0). }
    destruct (S1 c C D) as [X Y]. rewrite X in Hc. rewrite Y. apply lookup_insert_Some in Ho' as [[<- <-]|[D' Ho']].
    + apply n_par in Hc. rewrite Fl in Hc. by destruct Hc.
    + by eapply (n_child _ _ _ N).
  - intros x Hx. destruct (decide (x = left)) as [-> | D].
    + eapply rtc_l; [exact Pl|]. apply U. by eapply n_par.
    + apply U. destruct (decide (x ∈ sel)) as [C|C]; [destruct (Sel _ C) as (-> & _); eauto|]. destruct (S1 x C D) as [X _]. by rewrite X in Hx.
  - assert (C : 0 ∉ sel). { intros H. apply Sel in H as [H _]. by apply n_ne in H. }
    destruct (S1 0 C) as [-> _]; [|apply N]. intros <-. rewrite (n_root _ _ _ N) in Fl. done.
  - rewrite lookup_insert_ne; [apply N|]. intros ->. rewrite (n_out0 _ _ _ N) in Fn. done.
Qed.

(** A hole is closed: [on] becomes the outer wire of the new polygon, [out] the hole around it. *)
Lemma nest_split_hole (P' L' : pmap) (P1 : pmap) g o wa left on out n (sel : list nat) :
  O !! g = Some o -> o <> wa -> L !! wa = Some (Some g) -> P !! left = None -> O !! n = None ->
  ((on = left /\ out = wa) \/ (on = wa /\ out = left)) -> out ∉ sel ->
  (forall c, P1 !! c = if decide (c = on) then Some (Some out) else if decide (c = out) then Some (Some o)
                       else if decide (P !! c = Some (Some wa)) then Some (Some out) else P !! c) ->
  (forall c, c ∈ sel -> P1 !! c = Some (Some o) /\ P' !! c = Some (Some on) /\ L' !! c = Some (Some n)) ->
  (forall c, c ∉ sel -> P' !! c = P1 !! c /\ L' !! c = <[on := Some n]> (<[out := Some g]> L) !! c) ->
  nest P' L' (<[n := on]> O).
Proof.
  intros Ho Dw Lw Fl Fn OO So HP1 Sel Nsel. assert (Lf := L_none _ Fl). destruct (hole _ _ _ Lw Ho Dw) as [Pw Nw].
  assert (Dol : o <> left) by (apply (in_P_ne _ _ Fl); by eapply out_live).
  assert (Doo : on <> out) by (destruct OO as [[-> ->]|[-> ->]]; intros E; subst; congruence).
  assert (Dox : o <> out /\ o <> on) by (destruct OO as [[-> ->]|[-> ->]]; done). destruct Dox as [Do1 Do2].
  assert (Son : on ∉ sel). { intros H. apply Sel in H as [H _]. rewrite HP1, decide_True in H by done. congruence. }
  assert (Dg : forall g', is_Some (O !! g') -> g' <> n) by (intros g' [? ?] ->; congruence).
  assert (No : forall g', O !! g' <> Some on /\ O !! g' <> Some out).
  { intros g'. assert (O !! g' <> Some left). { intros H. apply out_live in H. rewrite Fl in H. by destruct H. }
    destruct OO as [[-> ->]|[-> ->]]; split; auto. }
  assert (Pon : P' !! on = Some (Some out) /\ L' !! on = Some (Some n)).
  { destruct (Nsel _ Son) as [-> ->]. rewrite HP1, decide_True, lookup_insert by done. done. } destruct Pon as [Pon Lon].
  assert (Pout : P' !! out = Some (Some o) /\ L' !! out = Some (Some g)).
  { destruct (Nsel _ So) as [-> ->]. rewrite HP1, decide_False, decide_True, lookup_insert_ne, lookup_insert by done. done. } destruct Pout as [Pout Lout].
  (* all other wires *)
  assert (S1 : forall c, c ∉ sel -> c <> on -> c <> out -> L' !! c = L !! c /\
    ((P !! c = Some (Some wa) /\ P' !! c = Some (Some out)) \/ (P !! c <> Some (Some wa) /\ P' !! c = P !! c))).
  { intros c C D1 D2. destruct (Nsel _ C) as [X Y]. rewrite !lookup_insert_ne in Y by done. split; [done|]. rewrite X, HP1, !decide_False by done.
    destruct (decide _) as [E|E]; [left|right]; done. }
  assert (S2 : forall c, c ∈ sel -> c <> on /\ c <> out /\ P !! c = Some (Some o)).
  { intros c C. assert (D1 : c <> on) by congruence. assert (D2 : c <> out) by congruence. destruct (Sel _ C) as (X & _). rewrite HP1, !decide_False in X by done.
    destruct (decide _) as [E|E]; [congruence|done]. }
  assert (D0 : o = 0 \/ o <> 0) by lia.
  assert (Uo : forall x, is_Some (P !! x) -> up P' x).
  { apply up_all. intros x y E U. destruct (decide (x ∈ sel)) as [C|C].
    - destruct (S2 _ C) as (_ & _ & X). assert (y = o) as -> by congruence. destruct (Sel _ C) as (_ & Y & _). eapply rtc_l; [exact Y|].
      eapply rtc_l; [exact Pon|]. by eapply rtc_l; [exact Pout|].
    - assert (Ew : x = wa -> y = o) by (intros ->; congruence).
      destruct (decide (x = on)) as [-> | D1].
      { assert (on = wa) by (destruct OO as [[-> _]|[-> _]]; [congruence|done]). rewrite Ew in U by done. eapply rtc_l; [exact Pon|]. by eapply rtc_l; [exact Pout|]. }
      destruct (decide (x = out)) as [-> | D2].
      { assert (out = wa) by (destruct OO as [[_ ->]|[_ ->]]; [done|congruence]). rewrite Ew in U by done. by eapply rtc_l; [exact Pout|]. }
      destruct (S1 x C D1 D2) as [_ [[X Y]|[X Y]]].
      + assert (y = wa) as -> by congruence. eapply rtc_l; [exact Y|]. destruct OO as [[-> ->]|[-> ->]]; [done|].
        apply (up_next P' wa); [done|by eapply n_ne|done].
      + eapply rtc_l; [|exact U]. cbn. congruence. }
  constructor.
  - intros x. destruct (decide (x ∈ sel)) as [C|C]; [destruct (Sel _ C) as (_ & -> & ->); split; eauto|].
    destruct (decide (x = on)) as [-> | D1]; [rewrite Pon, Lon; split; eauto|]. destruct (decide (x = out)) as [-> | D2]; [rewrite Pout, Lout; split; eauto|].
    destruct (S1 x C D1 D2) as [-> X]. rewrite <- (n_dom _ _ _ N). destruct X as [[-> ->]|[_ ->]]; [split; eauto|done].
  - intros g' o' Ho'. apply lookup_insert_Some in Ho' as [[<- <-]|[D Ho']]; [done|].
    assert (C : o' ∉ sel). { intros H. apply S2 in H as (_ & _ & H). by eapply (out_out g' o' g o). }
    destruct (S1 o' C) as [-> _]; [intros ->; by destruct (No g')|intros ->; by destruct (No g')|]. by apply N.
  - intros x Hx. destruct (decide (x ∈ sel)) as [C|C].
    { destruct (Sel _ C) as (_ & -> & ->). exists n, on. rewrite lookup_insert. auto. }
    destruct (decide (x = on)) as [-> | D1]; [exists n, on; rewrite lookup_insert; auto|].
    destruct (decide (x = out)) as [-> | D2]; [exists g, o; rewrite lookup_insert_ne by (apply not_eq_sym, Dg; eauto); auto|].
    destruct (S1 x C D1 D2) as [-> X].
    assert (Ix : is_Some (P !! x)) by (destruct X as [[-> _]|[_ X]]; [eauto|by rewrite X in Hx]).
    destruct X as [[X Y]|[X Y]].
    + destruct (out_hole wa x Nw X) as (g' & A & B). exists g', x. rewrite lookup_insert_ne by (apply not_eq_sym, Dg; eauto). auto.
    + destruct (n_wire _ _ _ N _ Ix) as (g1 & o1 & A & B & E). exists g1, o1. rewrite lookup_insert_ne by (apply not_eq_sym, Dg; eauto).
      rewrite Y. done.
  - intros c o' g' Hc Ho'. apply lookup_insert_Some in Ho' as [[<- <-]|[Dn Ho']].
    + destruct (decide (c ∈ sel)) as [C|C]; [by destruct (Sel _ C) as (_ & _ & ->)|]. exfalso.
      destruct (decide (c = on)) as [-> | D1]; [congruence|]. destruct (decide (c = out)) as [-> | D2]; [congruence|].
      destruct (S1 c C D1 D2) as [_ [[X Y]|[X Y]]]; [congruence|]. rewrite Y in Hc. destruct OO as [[-> ->]|[-> ->]]; [|done].
      apply n_par in Hc. rewrite Fl in Hc. by destruct Hc.
    + destruct (decide (c ∈ sel)) as [C|C]. { exfalso. destruct (Sel _ C) as (_ & Y & _). assert (o' = on) as -> by congruence. by destruct (No g'). }
      destruct (decide (c = on)) as [-> | D1]. { exfalso. assert (o' = out) as -> by congruence. by destruct (No g'). }
      destruct (decide (c = out)) as [-> | D2]. { assert (o' = o) as -> by congruence. rewrite Lout. by rewrite (out_inj _ _ _ Ho Ho'). }
      destruct (S1 c C D1 D2) as [-> [[X Y]|[X Y]]]. { exfalso. assert (o' = out) as -> by congruence. by destruct (No g'). }
      rewrite Y in Hc. by eapply (n_child _ _ _ N).
  - intros x Hx. destruct (decide (x = left)) as [-> | D].
    + destruct OO as [[-> ->]|[-> ->]]; eapply rtc_l; [exact Pon| |exact Pout|]; apply Uo; [eauto|by eapply out_live].
    + apply Uo. destruct (decide (x ∈ sel)) as [C|C]; [apply S2 in C as (_ & _ & ->); eauto|].
      destruct (decide (x = wa)) as [-> | D2]; [eauto|].
      destruct (S1 x C) as [_ [[-> _]|[_ X]]]; [destruct OO as [[-> ->]|[-> ->]]; done|destruct OO as [[-> ->]|[-> ->]]; done|eauto|by rewrite X in Hx].
  - assert (R := n_root _ _ _ N).
    destruct (S1 0) as [_ [[X _]|[_ ->]]]; [intros C; apply S2 in C as (_ & _ & ?); congruence| | |congruence|done].
    + destruct OO as [[-> ->]|[-> ->]]; congruence.
    + destruct OO as [[-> ->]|[-> ->]]; congruence.
  - rewrite lookup_insert_ne; [apply N|]. intros ->. rewrite (n_out0 _ _ _ N) in Fn. done.
Qed.

(** A hole falls into two. *)
Lemma nest_cut_hole (P' : pmap) g o wa wb : O !! g = Some o -> o <> wa -> L !! wa = Some (Some g) -> P !! wb = None ->
  (forall c, P' !! c = <[wb := Some o]> (<[wa := Some o]> P) !! c \/
             (<[wb := Some o]> (<[wa := Some o]> P) !! c = Some (Some wa) /\ P' !! c = Some (Some wb))) ->
  nest P' (<[wb := Some g]> L) O.
Proof.
  intros Ho Dw Lw Fb HP. destruct (hole _ _ _ Lw Ho Dw) as [Pw Nw]. rewrite (insert_id P) in HP by done.
  assert (Lb := L_none _ Fb). assert (Dob := in_P_ne _ _ Fb (out_live _ _ Ho)). assert (Dab : wa <> wb) by congruence.
  assert (Pb : P' !! wb = Some (Some o)). { destruct (HP wb) as [X|[X _]]; rewrite lookup_insert in X; congruence. }
  assert (S : forall c, c <> wb -> P' !! c = P !! c \/ (P !! c = Some (Some wa) /\ P' !! c = Some (Some wb))).
  { intros c D. destruct (HP c) as [X|[X Y]]; rewrite lookup_insert_ne in X by done; auto. }
  assert (Pa : P' !! wa = Some (Some o)). { destruct (S wa Dab) as [X|[X _]]; congruence. }
  assert (No : forall g', O !! g' <> Some wb). { intros g' H. apply out_live in H. rewrite Fb in H. by destruct H. }
  assert (U : forall x, is_Some (P !! x) -> up P' x).
  { apply up_all. intros x y E U. destruct (S x) as [X|[X Y]]; [congruence|eapply rtc_l; [|exact U]; cbn; congruence|].
    assert (y = wa) as -> by congruence. eapply rtc_l; [exact Y|]. eapply rtc_l; [exact Pb|]. apply (up_next P' wa); [done|by eapply n_ne|done]. }
  constructor.
  - intros x. destruct (decide (x = wb)) as [-> | D]; [rewrite Pb, lookup_insert; split; eauto|]. rewrite lookup_insert_ne by done.
    rewrite <- (n_dom _ _ _ N). destruct (S x D) as [-> |[-> ->]]; [done|split; eauto].
  - intros g' o' Ho'. rewrite lookup_insert_ne by (intros <-; by apply (No g')). by apply N.
  - intros x Hx. destruct (decide (x = wb)) as [-> | D]; [rewrite lookup_insert; eauto 6|]. rewrite lookup_insert_ne by done.
    destruct (S x D) as [X|[X Y]].
    + rewrite X in *. by apply N.
    + destruct (out_hole wa x Nw X) as (g' & A & B). eauto 6.
  - intros c o' g' Hc Ho'. destruct (decide (c = wb)) as [-> | D].
    + rewrite lookup_insert. assert (o' = o) as -> by congruence. by rewrite (out_inj _ _ _ Ho Ho').
    + rewrite lookup_insert_ne by done. destruct (S c D) as [X|[X Y]]; [rewrite X in Hc; by eapply (n_child _ _ _ N)|].
      exfalso. apply (No g'). congruence.
  - intros x Hx. destruct (decide (x = wb)) as [-> | D].
    + eapply rtc_l; [exact Pb|]. apply U. by eapply out_live.
    + apply U. destruct (S x D) as [X|[X Y]]; [by rewrite X in Hx|rewrite X; eauto].
  - destruct (S 0) as [X|[X Y]].
    + intros <-. rewrite (n_root _ _ _ N) in Fb. done.
    + rewrite X. apply N.
    + rewrite (n_root _ _ _ N) in X. done.
  - apply N.
Qed.

(** An outer wire falls into two: what is left to be checked afterwards. *)
Lemma nest_cut_outer (P' : pmap) g wa wb q0 ow iv : O !! g = Some wa -> P !! wa = Some (Some q0) -> P !! wb = None ->
  ((ow = wa /\ iv = wb) \/ (ow = wb /\ iv = wa)) ->
  (forall k, is_Some (P' !! k) <-> k = wb \/ is_Some (P !! k)) ->
  (let P1 := <[iv := Some ow]> (<[ow := Some q0]> P) in
   forall c, (P' !! c = Some (Some iv) /\ (c = wb \/ is_Some (P !! c) /\ c <> 0)) \/
             (P1 !! c = Some (Some wa) /\ c <> wa /\ P' !! c = Some (Some ow)) \/
             ((P1 !! c <> Some (Some wa) \/ c = wa) /\ P' !! c = P1 !! c)) ->
  (forall w, is_Some (P' !! w) -> up P' w /\ exists g' o', <[wb := Some g]> L !! w = Some (Some g') /\ <[g := ow]> O !! g' = Some o' /\ (o' = w \/ P' !! w = Some (Some o'))) ->
  nest P' (<[wb := Some g]> L) (<[g := ow]> O).
Proof.
  intros Ho Pa Fb OI Hdom HP HC. assert (Lb := L_none _ Fb). assert (Dab : wa <> wb) by congruence. assert (La := n_out _ _ _ N _ _ Ho).
  assert (Doi : ow <> iv) by (destruct OI as [[-> ->]|[-> ->]]; congruence).
  assert (No : forall g', O !! g' <> Some wb). { intros g' H. apply out_live in H. rewrite Fb in H. by destruct H. }
  constructor.
  - intros x. rewrite Hdom. destruct (decide (x = wb)) as [-> | D]; [rewrite lookup_insert; split; eauto|]. rewrite lookup_insert_ne by done.
    rewrite (n_dom _ _ _ N). split; [by intros [?|?]|auto].
  - intros g' o' Ho'. apply lookup_insert_Some in Ho' as [[<- <-]|[D Ho']].
    + destruct OI as [[-> ->]|[-> ->]]; [by rewrite lookup_insert_ne|by rewrite lookup_insert].
    + rewrite lookup_insert_ne by (intros <-; by apply (No g')). by apply N.
  - intros x Hx. by apply HC.
  - intros c o' g' Hc Ho'. cbn zeta in HP.
    assert (Q1 : q0 <> wa) by (intros ->; by apply (n_self wa)).
    assert (Q2 : q0 <> wb) by (intros ->; apply n_par in Pa; rewrite Fb in Pa; by destruct Pa).
    assert (Q : q0 <> ow) by (destruct OI as [[-> _]|[-> _]]; done).
    assert (Niv : o' <> iv).
    { intros ->. apply lookup_insert_Some in Ho' as [[<- ?]|[D Ho']]; [done|]. destruct OI as [[-> ->]|[-> ->]]; [by apply (No g')|].
      apply D. by apply (out_inj g g' wa). }
    destruct (decide (c = ow)) as [-> | Dc].
    { exfalso. assert (P1 : <[iv := Some ow]> (<[ow := Some q0]> P) !! ow = Some (Some q0)) by (by rewrite lookup_insert_ne, lookup_insert).
      destruct (HP ow) as [[X _]|[(X & _)|[_ X]]]; [congruence|congruence|]. assert (o' = q0) as -> by congruence.
      apply lookup_insert_Some in Ho' as [[<- ?]|[D Ho']]; [congruence|]. by eapply (out_out g wa g' q0). }
    destruct (decide (c = iv)) as [-> | Dc'].
    { assert (P1 : <[iv := Some ow]> (<[ow := Some q0]> P) !! iv = Some (Some ow)) by (by rewrite lookup_insert).
      assert (X : o' = ow). { destruct (HP iv) as [[X _]|[(X & _ & Y)|[_ X]]]; congruence. } subst o'.
      assert (g' = g) as ->. { apply lookup_insert_Some in Ho' as [[<- ?]|[D Ho']]; [done|]. destruct OI as [[-> ->]|[-> ->]]; [by apply (out_inj g' g wa)|by apply No in Ho']. }
      destruct OI as [[-> ->]|[-> ->]]; [by rewrite lookup_insert|by rewrite lookup_insert_ne]. }
    assert (Db : c <> wb) by (destruct OI as [[-> ->]|[-> ->]]; done).
    rewrite lookup_insert_ne by done. specialize (HP c). rewrite !lookup_insert_ne in HP by done. destruct HP as [[X _]|[(X & Y & Z)|[X Y]]].
    + congruence.
    + assert (o' = ow) as -> by congruence. assert (g' = g) as ->. { apply lookup_insert_Some in Ho' as [[<- ?]|[D Ho']]; [done|]. destruct OI as [[-> ->]|[-> ->]]; [by apply (out_inj g' g wa)|by apply No in Ho']. }
      by apply (n_child _ _ _ N c wa).
    + rewrite Y in Hc. apply lookup_insert_Some in Ho' as [[<- <-]|[D Ho']]; [|by eapply (n_child _ _ _ N)].
      destruct OI as [[-> ->]|[-> ->]]; [by apply (n_child _ _ _ N c wa)|]. apply n_par in Hc. rewrite Fb in Hc. by destruct Hc.
  - intros x Hx. by apply HC.
  - assert (R := n_root _ _ _ N). cbn zeta in HP.
    assert (D1 : 0 <> ow) by (destruct OI as [[-> _]|[-> _]]; congruence). assert (D2 : 0 <> iv) by (destruct OI as [[_ ->]|[_ ->]]; congruence).
    specialize (HP 0). rewrite !lookup_insert_ne in HP by congruence. destruct HP as [[X [Y|[_ Y]]]|[(X & Y & Z)|[X Y]]].
    + subst wb. congruence.
    + done.
    + congruence.
    + congruence.
  - rewrite lookup_insert_ne; [apply N|]. intros ->. assert (R := n_out0 _ _ _ N). assert (wa = 0) as -> by congruence. by apply n_ne in Pa.
Qed.

(** Two polygons become one. *)
Lemma nest_merge (P' L' : pmap) keep rm kp n o : L !! keep = Some (Some kp) -> kp <> n -> O !! n = Some rm -> keep <> rm -> O !! kp = Some o -> rm <> 0 ->
  ((P !! keep = P !! rm /\ o = keep) \/ P !! rm = Some (Some keep)) ->
  P' !! rm = None -> L' !! rm = None ->
  (forall c, c <> rm -> P !! c = Some (Some rm) -> P' !! c = Some (Some o) /\ L' !! c = Some (Some kp)) ->
  (forall c, c <> rm -> P !! c <> Some (Some rm) -> P' !! c = P !! c /\ L' !! c = L !! c) ->
  nest P' L' (delete n O).
Proof.
  intros Lk Dk On Dkr Ok D0 C0 Pr Lr Ch Nch. assert (Lr0 := n_out _ _ _ N _ _ On). assert (Ir := out_live _ _ On).
  assert (Dor : o <> rm) by (intros ->; apply Dk; by apply (out_inj kp n rm)).
  assert (Ip : exists p, P !! rm = Some (Some p)). { destruct Ir as [[p|] E]; [eauto|]. by apply n_roots in E. } destruct Ip as [p Ep].
  assert (Co : P !! o <> Some (Some rm)). { intros H. by eapply (out_out kp o n rm). }
  assert (K : forall x, is_Some (P !! x) -> (x <> rm -> up P' x) /\ (x = rm -> up P' o)).
  { intros x I. assert (U := n_up _ _ _ N x I). clear I. unfold up in U. revert x U.
    apply (rtc_ind_l (fun x => (x <> rm -> up P' x) /\ (x = rm -> up P' o))); [split; [intros _; apply rtc_refl|intros <-; done]|].
    intros x y E _ [IH1 IH2]. split.
    - intros Dx. destruct (decide (P !! x = Some (Some rm))) as [E'|E'].
      + destruct (Ch x Dx E') as [X _]. eapply rtc_l; [exact X|]. apply IH2. congruence.
      + destruct (Nch x Dx E') as [X _]. eapply rtc_l; [cbn; rewrite X; exact E|]. apply IH1. intros ->. done.
    - intros ->. assert (y = p) as -> by congruence. assert (Dp : p <> rm) by (intros ->; by apply (n_self rm)). specialize (IH1 Dp).
      destruct C0 as [[E1 ->]|E1].
      + eapply rtc_l; [|exact IH1]. cbn. destruct (Nch keep Dkr Co) as [-> _]. congruence.
      + assert (p = keep) as -> by congruence. assert (Dko : o <> keep). { intros ->. by eapply (out_out n rm kp keep). }
        destruct (hole _ _ _ Lk Ok Dko) as [Pk _]. destruct (Nch keep Dkr ltac:(congruence)) as [X _].
        apply (up_next P' keep); [done|by eapply n_ne|congruence]. }
  constructor.
  - intros x. destruct (decide (x = rm)) as [-> | D]; [rewrite Pr, Lr; split; by intros []|]. destruct (decide (P !! x = Some (Some rm))) as [E|E].
    + destruct (Ch x D E) as [-> ->]. split; eauto.
    + destruct (Nch x D E) as [-> ->]. apply N.
  - intros g' o' Ho'. apply lookup_delete_Some in Ho' as [D Ho'].
    assert (Dr : o' <> rm) by (intros ->; apply D; by apply (out_inj n g' rm)).
    destruct (Nch o' Dr) as [_ ->]; [|by apply N]. intros H. by eapply (out_out g' o' n rm).
  - intros x Hx. assert (D : x <> rm) by (intros ->; rewrite Pr in Hx; by destruct Hx). destruct (decide (P !! x = Some (Some rm))) as [E|E].
    + destruct (Ch x D E) as [-> ->]. exists kp, o. rewrite lookup_delete_ne by done. auto.
    + destruct (Nch x D E) as [X ->]. rewrite X in *. destruct (n_wire _ _ _ N _ Hx) as (g1 & o1 & A & B & C). exists g1, o1. split; [done|]. split; [|done].
      rewrite lookup_delete_ne; [done|]. intros <-. assert (o1 = rm) as -> by congruence. destruct C as [?|?]; [by subst|done].
  - intros c o' g' Hc Ho'. apply lookup_delete_Some in Ho' as [D Ho']. assert (Dc : c <> rm) by congruence.
    destruct (decide (P !! c = Some (Some rm))) as [E|E].
    + destruct (Ch c Dc E) as [X ->]. assert (o' = o) as -> by congruence. by rewrite (out_inj _ _ _ Ok Ho').
    + destruct (Nch c Dc E) as [X ->]. rewrite X in Hc. by eapply (n_child _ _ _ N).
  - intros x Hx. assert (D : x <> rm) by (intros ->; rewrite Pr in Hx; by destruct Hx). apply K; [|done].
    destruct (decide (P !! x = Some (Some rm))) as [E|E]; [eauto|]. destruct (Nch x D E) as [X _]. by rewrite X in Hx.
  - destruct (Nch 0) as [-> _]; [done| |apply N]. rewrite (n_root _ _ _ N). done.
  - rewrite lookup_delete_ne; [apply N|]. intros ->. rewrite (n_out0 _ _ _ N) in On. congruence.
Qed.
End Nest.
