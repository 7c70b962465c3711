(* DisjointSet histories. *)
From Verif Require Import Py Util M_Graph P_Graph Spec P_Walk S_Span P_Span M_Kruskal S_Sets P_DisjointSet.
Set Implicit Arguments. Unset Strict Implicit.

Lemma ds_inv_same d its J J' : (forall e, In e J <-> In e J') -> ds_inv d its J -> ds_inv d its J'.
Proof.
  intros He (D & HJ & HC). split; [assumption|]. split; [intros x y H; apply HJ, He; assumption|].
  intros x y Hx Hy. rewrite (HC x y Hx Hy). split; apply conn_incl; intros e; apply He.
Qed.
Lemma find_missing fuel d its J i : ds_inv d its J -> ~ In i its -> 1 <= fuel -> ds_find fuel i d = (d, Err KeyError).
Proof.
  intros (D & _) Hi Hf. destruct fuel as [|fuel]; [lia|]. unfold ds_find. erewrite bind_err; [reflexivity|]. unfold ds_climb. simpl.
  erewrite bind_err; [reflexivity|]. erewrite bind_err; [reflexivity|]. unfold ong, get_neighbors, nbr_list.
  rewrite <- (do_its D) in Hi. apply dget_None in Hi. rewrite Hi. destruct d; reflexivity.
Qed.
Lemma union_missing fuel d its J i j : ds_inv d its J -> ~ (In i its /\ In j its) -> length its <= fuel -> 1 <= fuel ->
  exists d', ds_union fuel i j d = (d', Err KeyError) /\ ds_inv d' its J.
Proof.
  intros DI Hij Hf H1. unfold ds_union. destruct (in_dec eq_dec i its) as [Hi|Hi].
  - destruct (find_ok DI Hi Hf) as (d1 & r0 & k0 & F0 & U0 & D1 & E1). exists d1. rewrite (bind_ok _ F0).
    split; [|assumption]. apply bind_err. eapply find_missing; eauto.
  - exists d. split; [|assumption]. apply bind_err. eapply find_missing; eauto.
Qed.
Lemma step_inv fuel d its J o : ds_inv d its J -> NoDup (its ++ ditems_of o) -> length its <= fuel -> 1 <= fuel ->
  ds_inv (dexec fuel o d) (its ++ ditems_of o) (J ++ djoined_of its o).
Proof.
  intros DI Hnd Hf H1. destruct o as [l|i j|i]; cbn [dexec ditems_of djoined_of] in *.
  - destruct l as [|a t]; [rewrite !app_nil_r; exact DI|]. apply NoDup_app_iff in Hnd as (_ & Hnd & Hdis).
    destruct (add_ok DI Hnd) as (d' & He & DI' & _). { intros x Hx Hi. exact (Hdis x Hi Hx). }
    rewrite He. simpl. eapply ds_inv_same; [|exact DI']. intros e. rewrite !in_app_iff. tauto.
  - rewrite app_nil_r. destruct (mem_spec i its) as [Hi|Hi]; [destruct (mem_spec j its) as [Hj|Hj]|]; simpl.
    + destruct (union_ok DI Hi Hj Hf) as (d' & b & He & DI' & _). rewrite He. simpl. eapply ds_inv_same; [|exact DI'].
      intros e. rewrite in_app_iff. simpl. tauto.
    + rewrite app_nil_r. destruct (union_missing (i := i) (j := j) DI ltac:(tauto) Hf H1) as (d' & He & DI'). rewrite He. exact DI'.
    + rewrite app_nil_r. destruct (union_missing (i := i) (j := j) DI ltac:(tauto) Hf H1) as (d' & He & DI'). rewrite He. exact DI'.
  - rewrite !app_nil_r. destruct (in_dec eq_dec i its) as [Hi|Hi].
    + destruct (find_ok DI Hi Hf) as (d1 & r0 & k0 & F0 & U0 & D1 & E1). rewrite F0. exact D1.
    + rewrite (find_missing DI Hi H1). exact DI.
Qed.
Lemma history_inv fuel os : 1 <= fuel -> forall d its J, ds_inv d its J -> NoDup (its ++ ditems os) -> length (its ++ ditems os) <= fuel ->
  ds_inv (dhistory fuel d os) (its ++ ditems os) (J ++ djoined its os).
Proof.
  intros H1. induction os as [|o os IH]; intros d its J DI Hnd Hf; simpl; [rewrite !app_nil_r; exact DI|].
  unfold ditems in *. simpl in Hnd, Hf. rewrite app_assoc in Hnd, Hf. rewrite !app_assoc.
  apply IH; [|assumption|assumption]. apply step_inv; [assumption|apply NoDup_app_iff in Hnd; tauto| |assumption].
  rewrite !app_length in Hf. lia.
Qed.
Lemma sets_ok opt kw os fuel : NoDup (ditems os) -> length (ditems os) < fuel ->
  let d := dhistory fuel (new_ds opt kw) os in
  (forall i, In i (ditems os) -> exists d' r, ds_find fuel i d = (d', Ok r) /\ In r (ditems os)) /\
  (forall i, ~ In i (ditems os) -> ds_find fuel i d = (d, Err KeyError)) /\
  (forall i j, In i (ditems os) -> In j (ditems os) ->
     (snd (ds_find fuel i d) = snd (ds_find fuel j d) <-> conn (djoined [] os) i j)) /\
  (forall i j, In i (ditems os) -> In j (ditems os) ->
     exists d' b, ds_union fuel i j d = (d', Ok b) /\ (b = true <-> ~ conn (djoined [] os) i j)) /\
  get_node_list (ds_g d) = ditems os.
Proof.
  intros Hnd Hf d.
  assert (DI : ds_inv d (ditems os) (djoined [] os)).
  { apply (history_inv (os := os) (fuel := fuel) ltac:(lia) (new_ds_inv opt kw)); simpl; [assumption|lia]. }
  assert (Hfl : length (ditems os) <= fuel) by lia.
  split; [|split; [|split; [|split]]].
  - intros i Hi. destruct (find_ok DI Hi Hfl) as (d1 & r0 & k0 & F0 & U0 & D1 & E1). exists d1, r0. split; [assumption|].
    exact (up_in (proj1 DI) Hi U0).
  - intros i Hi. apply (find_missing DI Hi). lia.
  - intros i j Hi Hj. destruct (find_ok DI Hi Hfl) as (d1 & r0 & k0 & F0 & U0 & _). destruct (find_ok DI Hj Hfl) as (d2 & r1 & k1 & F1 & U1 & _).
    rewrite F0, F1. simpl. rewrite <- (proj2 (proj2 DI) i j Hi Hj). split.
    + intros [= ->]. exists r1, k0, k1. auto.
    + intros (r & k & k' & A & B). destruct (up_det A U0) as [-> _]. destruct (up_det B U1) as [-> _]. reflexivity.
  - intros i j Hi Hj. destruct (union_ok DI Hi Hj Hfl) as (d' & b & He & _ & Hb). eauto.
  - apply (do_its (proj1 DI)).
Qed.
