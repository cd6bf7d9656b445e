(** What the user of the PDF classes relies on, without arrays, cursors or positions.

    A program leaves behind a list of [snode]s: for every PDF built, the constructor call that built it.  The value of a
    PDF at an event is defined by recursion over the expression those calls describe. *)
From Coq Require Import List ZArith String Bool.
From Verif Require Import F64 ListAux VariableModel LeafFormulas DeviceModel PdfModel.
From Verif Require LeafGen.
Import ListNotations.

(** ** The expression behind every PDF *)
Inductive snode : Type :=
| SLeaf (l : leaf handle) (hp0 : heap)      (* built when the variables had the contents hp0 *)
| SAdd (ws : list handle) (kids : list nat)
| SProd (kids : list nat)
| SEWAdd (ws : list handle) (kids : list nat)
| SMapped (m : nat) (ts : list nat)
| SComposite (core shell : nat).

Definition kids_of (n : snode) : list nat :=
  match n with
  | SLeaf _ _ => []
  | SAdd _ ks | SProd ks | SEWAdd _ ks => ks
  | SMapped m ts => m :: ts
  | SComposite a b => [a; b]
  end.

(** Bookkeeping of one successful call. *)
Definition note (st : gstate) (o : gop) (out : gout) (ns : list snode) : list snode :=
  let h := hget (g_hs st) in
  match out, o with
  | GDone, GLeaf l => ns ++ [SLeaf (leaf_map h l) (g_heap st)]
  | GDone, GAdd ws ks => ns ++ [SAdd (map h ws) ks]
  | GDone, GAdd2 w a b => ns ++ [SAdd [h w] [a; b]]
  | GDone, GProd ks => ns ++ [SProd ks]
  | GDone, GEWAdd ws ks => ns ++ [SEWAdd (map h ws) ks]
  | GDone, GMapped m ts => ns ++ [SMapped m ts]
  | GDone, GComposite a b => ns ++ [SComposite a b]
  | GDone, GSetMasses id b s =>
      match nth_error ns id with
      | Some (SLeaf (LKinLimitBW x m w _ _) hp0) => upd ns id (SLeaf (LKinLimitBW x m w b s) hp0)
      | _ => ns
      end
  | _, _ => ns
  end.
Fixpoint history (st : gstate) (ns : list snode) (ops : list gop) : gstate * list snode :=
  match ops with
  | [] => (st, ns)
  | o :: t => let '(st', out) := gstep st o in history st' (note st o out ns) t
  end.
(** State and expressions after a program. *)
Definition after (ops : list gop) : gstate * list snode := history ginit [] ops.

(** The PDFs an expression is made of, with repetitions, root first. *)
Fixpoint subtree (fuel : nat) (ns : list snode) (id : nat) : list nat :=
  match fuel, nth_error ns id with
  | S f, Some n => id :: flat_map (subtree f ns) (kids_of n)
  | _, _ => []
  end.
Definition tree_ids (ns : list snode) (id : nat) : list nat := subtree (S id) ns id.

(** The Variables / Observables passed to the constructor of a node. *)
Definition node_pars (n : snode) : list handle :=
  match n with SLeaf l _ => leaf_pars l | SAdd ws _ => ws | _ => [] end.
Definition node_obs (n : snode) : list handle :=
  match n with SLeaf l _ => leaf_obs l | SEWAdd ws _ => ws | _ => [] end.

(** ** Values *)
(** Where the event holds the value of an observable: at the position setupObservables gave it. *)
Definition env := handle -> option f64.
Definition event_env (hp : heap) (e : event) : env := fun h =>
  let z := get_i hp h in
  if (0 <=? z)%Z && (z <? 2 ^ 31)%Z
  then match nth_error e (Z.to_nat z) with Some (Some v) => Some v | _ => None end
  else None.

Fixpoint omap {A B} (f : A -> option B) (l : list A) : option (list B) :=
  match l with
  | [] => Some []
  | a :: t => match f a, omap f t with Some b, Some bs => Some (b :: bs) | _, _ => None end
  end.
Definition obind {A B} (x : option A) (k : A -> option B) : option B := match x with Some a => k a | None => None end.

(** ** The formula each leaf class evaluates, in terms of its constructor arguments, in any arithmetic.
    [en] and [val] are the values of the observables and parameters, [lims] the limits an observable had when the PDF was
    built, [inj] reads the double constants.  This is what the code computes; what the classes document is in FormulaSpec.v. *)
Section LeafValue.
Context {T V : Type} (Ar : LeafGen.ops T) (L : LeafGen.mlib T) (inj : f64 -> T) (lims : V -> T * T).
Variable en : V -> option T.
Variable val : V -> T.
Definition leaf_value_in (l : leaf V) : option T :=
  match l with
  | LArgus x m0 slope up power =>
      obind (en x) (fun x => Some ((if up then LeafGen.argus_upper Ar L else LeafGen.argus_lower Ar L) x (val m0) (val slope) (val power)))
  | LBW x m w => obind (en x) (fun x => Some (LeafGen.breit_wigner Ar L x (val m) (val w)))
  | LBernstein x cs d =>
      obind (en x) (fun v => Some (LeafGen.bernstein Ar L v (fst (lims x)) (snd (lims x)) d (map val cs)))
  | LBifurGauss x m sl sr => obind (en x) (fun x => Some (LeafGen.bifur_gauss Ar L x (val m) (val sl) (val sr)))
  | LBinTransform axes =>
      obind (omap (fun a => obind (en (fst (fst (fst a)))) (fun x => Some (x, inj (snd (fst (fst a))), inj (snd (fst a)), snd a))) axes)
            (fun l => obind (LeafGen.bin_number Ar l 0 1) (fun b => Some (LeafGen.o_ofZ Ar b)))
  | LCorrGaussian x y m1 s1 m2 s2 c =>
      obind (en x) (fun x => obind (en y) (fun y => Some (LeafGen.corr_gauss Ar L x y (val m1) (val s1) (val m2) (val s2) (val c))))
  | LCrystalBall x m s a p => obind (en x) (fun x => Some (LeafGen.crystal_ball Ar L x (val m) (val s) (val a) (val p)))
  | LExpGaus x m s t => obind (en x) (fun x => Some (LeafGen.exp_gaus Ar L x (val m) (val s) (val t)))
  | LExp x a => obind (en x) (fun x => Some (LeafGen.exponential Ar L x (val a)))
  | LExpOffset x a o => obind (en x) (fun x => Some (LeafGen.exponential Ar L (LeafGen.o_sub Ar x (val o)) (val a)))
  | LExpPoly x ws => obind (en x) (fun x => Some (LeafGen.exp_poly Ar L x 0 (map val ws)))
  | LExpPolyOffset x ws o => obind (en x) (fun x => Some (LeafGen.exp_poly Ar L (LeafGen.o_sub Ar x (val o)) 1 (map val ws)))
  | LGaussian x m s => obind (en x) (fun x => Some (LeafGen.gauss Ar L x (val m) (val s)))
  | LJohnsonSU x m s g d => obind (en x) (fun x => Some (LeafGen.johnson_su Ar L x (val m) (val s) (val g) (val d)))
  | LKinLimitBW x m w b s => obind (en x) (fun x => Some (LeafGen.kin_limit_bw Ar x (val m) (val w) (inj b) (inj s)))
  | LLandau x m s => obind (en x) (fun x => Some (LeafGen.landau Ar L x (val m) (val s)))
  | LNovosibirsk x m s t => obind (en x) (fun x => Some (LeafGen.novosibirsk Ar L x (val m) (val s) (val t)))
  | LPolynomial x ws lowest => obind (en x) (fun x => Some (LeafGen.polynomial Ar L x (Z.of_nat lowest) (map val ws)))
  | LOffsetPolynomial x ws x0 lowest =>
      obind (en x) (fun x => Some (LeafGen.polynomial Ar L x (Z.of_nat lowest) (skipn 2 (map val (ws ++ [x0])))))
  | LMultiPolynomial obses cs offs d =>
      obind (omap en obses) (fun xs => LeafGen.multi_polynomial Ar L d xs (map val offs) (map val cs))
  | LScaledGaussian x m s d e => obind (en x) (fun x => Some (LeafGen.scaled_gauss Ar L x (val m) (val s) (val d) (val e)))
  | LStep x x0 up => obind (en x) (fun x => Some (LeafGen.step Ar x (val x0) up))
  | LTrig x t c l up =>
      obind (en x) (fun x => Some ((if up then LeafGen.trig_upper Ar L else LeafGen.trig_lower Ar L) x (val t) (val c) (val l)))
  | LTrig2 x y t c l m up =>
      obind (en x) (fun x => obind (en y) (fun y =>
        Some ((if up then LeafGen.trig_upper2 Ar L else LeafGen.trig_lower2 Ar L) x y (val t) (val c) (val l) (val m))))
  | LVoigtian x m s w => obind (en x) (fun x => Some (LeafGen.voigt Ar L x (val m) (val s) (val w)))
  | LVarBin x ls => obind (en x) (fun x => Some (LeafGen.var_bin Ar x (map inj ls)))
  | LDalitzVeto x y m d1 d2 d3 vs =>
      obind (en x) (fun x => obind (en y) (fun y =>
        Some (LeafGen.dalitz_veto Ar x y (val m) (val d1) (val d2) (val d3)
                          (map (fun v => (snd v, val (fst (fst v)), val (snd (fst v)))) vs))))
  | LSquareDalitz x y c0 c1 c2 c3 c4 c5 c6 c7 =>
      obind (en x) (fun x => obind (en y) (fun y =>
        Some (LeafGen.square_dalitz Ar x y (val c0) (val c1) (val c2) (val c3) (val c4) (val c5) (val c6) (val c7))))
  end.
End LeafValue.

Section Value.
Variable L : libm.
Variable hp : heap.          (* the current contents of the variables *)
Definition val (h : handle) : f64 := get_f hp h FValue.

Definition leaf_value (hp0 : heap) (en : env) (l : leaf handle) : option f64 :=
  leaf_value_in f64_ops L (fun c => c) (fun x => (get_f hp0 x FLower, get_f hp0 x FUpper)) en val l.

(** Weighted sum of (value, norm) pairs, with the running total of the weights, from left to right. *)
Fixpoint weighted (ws : list f64) (vs : list (f64 * f64)) (sum total : f64) : f64 * f64 :=
  match ws, vs with
  | w :: ws', (v, n) :: vs' => weighted ws' vs' (fadd sum (fmul (fmul w v) n)) (fadd total w)
  | _, _ => (sum, total)
  end.
(** As many weights as components: sum / total; one weight less: the last component gets 1 - total. *)
Definition add_value (ws : list f64) (vs : list (f64 * f64)) : option f64 :=
  let '(sum, total) := weighted ws vs fzero fzero in
  if Nat.eqb (List.length ws) (List.length vs) then Some (fdiv sum total)
  else match nth_error vs (List.length ws) with
       | Some (v, n) => Some (fadd sum (fmul (fmul (fsub fone total) v) n))
       | None => None
       end.
Definition prod_value (vs : list (f64 * f64)) : f64 := fold_left (fun r p => fmul r (fmul (fst p) (snd p))) vs fone.

Variable norms : nat -> f64.                    (* the normalisation factor each PDF currently has *)
Variable first_obs : nat -> option handle.      (* the first of the PDF's observables *)

Fixpoint value (fuel : nat) (ns : list snode) (en : env) (id : nat) : option f64 :=
  match fuel, nth_error ns id with
  | S f, Some n =>
      let kid := fun e k => obind (value f ns e k) (fun v => Some (v, norms k)) in
      match n with
      | SLeaf l hp0 => leaf_value hp0 en l
      | SAdd ws ks => obind (omap (kid en) ks) (add_value (map val ws))
      | SProd ks => obind (omap (kid en) ks) (fun vs => Some (prod_value vs))
      | SEWAdd ws ks => obind (omap en ws) (fun wv => obind (omap (kid en) ks) (add_value wv))
      | SMapped m ts =>
          obind (value f ns en m) (fun mv => obind (floor_int (fadd fhalf mv)) (fun t =>
            if Z.ltb t 0 then None
            else obind (nth_error ts (Z.to_nat t)) (fun k => obind (kid en k) (fun p => Some (fmul (fst p) (snd p))))))
      | SComposite core shell =>
          obind (value f ns en core) (fun c => obind (first_obs shell) (fun o =>
            value f ns (fun h => if handle_eqb h o then Some c else None) shell))
      end
  | _, _ => None
  end.
End Value.

Definition norm_of (st : gstate) (id : nat) : f64 := match nth_error (g_pdfs st) id with Some p => p_norm p | None => fone end.
Definition first_obs_of (st : gstate) (id : nat) : option handle := hd_error (getObservables (g_pdfs st) id).
(** The value of PDF [id] at event [e], with the variables and normalisations of state [st]. *)
Definition pdf_value (L : libm) (st : gstate) (ns : list snode) (e : event) (id : nat) : option f64 :=
  value L (g_heap st) (norm_of st) (first_obs_of st) (S id) ns (event_env (g_heap st) e) id.

(** The metric that the current fit control of PDF [id] asks for; a PDF without one gets UnbinnedNllFit. *)
Definition metric_of (st : gstate) (id : nat) : metric :=
  match nth_error (g_pdfs st) id with
  | Some p => match p_fit p with Some fc => getMetric fc | None => MNLL end
  | None => MNLL
  end.

(** ** Conditions *)
Definition distinct (hs : list handle) : Prop := NoDup (map h_value hs).
Definition int_ok (z : Z) : Prop := (- 2 ^ 31 <= z < 2 ^ 31)%Z.
Definition small (n : nat) : Prop := (Z.of_nat n < 2 ^ 31)%Z.

(** A leaf that the flattened evaluation handles: not a VariableBinTransform1DPdf, no observable twice, integers that
    fit an int. *)
Definition leaf_ok (l : leaf handle) : Prop :=
  distinct (leaf_obs l) /\
  match l with
  | LVarBin _ _ => False
  | LBernstein _ cs d => small (List.length cs + d)
  | LBinTransform axes => Forall (fun a => int_ok (snd a)) axes
  | LPolynomial _ _ d => small d
  | LOffsetPolynomial _ _ _ d => small d
  | LMultiPolynomial obses _ offs d => small (d + 1) /\ List.length offs = List.length obses
  | LStep _ _ up => int_ok up
  | LDalitzVeto _ _ _ _ _ _ vs => Forall (fun v => int_ok (snd v)) vs
  | _ => True
  end.
Definition node_ok (hp : heap) (first_obs : nat -> option handle) (n : snode) : Prop :=
  match n with
  | SLeaf l _ => leaf_ok l
  | SEWAdd ws _ => distinct ws
  | SComposite _ shell => match first_obs shell with Some o => (0 <= get_i hp o < 10)%Z | None => False end
  | _ => True
  end.
(** The sizes of the registration lists fit an int. *)
Definition sizes_ok (ps : pdfs) (id : nat) : Prop :=
  match nth_error ps id with
  | Some p => small (List.length (p_pars p)) /\ small (List.length (p_cons p)) /\ small (List.length (p_obs p))
  | None => True
  end.
Definition tree_ok (st : gstate) (ns : list snode) (id : nat) : Prop :=
  small (List.length (tree_ids ns id)) /\
  Forall (fun i => sizes_ok (g_pdfs st) i /\
                   match nth_error ns i with Some n => node_ok (g_heap st) (first_obs_of st) n | None => True end)
         (tree_ids ns id).

(** What a program may do between flattening the tree of [k] and refreshing its parameters: read, assign floating point
    members of Variables and Observables, refresh, store a normalisation of a PDF of the tree, change integration settings. *)
Definition quiet (ns : list snode) (k : nat) (o : gop) : Prop :=
  match o with
  | GVar (Set_ _ _ (CF _)) | GVar (Get _ _) | GVar (Equal _ _) | GVar (EqualAll _ _) | GVar (InRange _)
  | GVar (IsEventNumber _) => True
  | GUpdateVariable _ _ _ | GGetParameters _ | GGetObservables _
  | GSetFineness _ _ | GSetCommonNorm _ _ | GSetSeparateNorm _ _ => True
  | GCopyParams j => j = k
  | GSetNormalization j _ => In j (tree_ids ns k)
  | _ => False
  end.

(** ** Flattened arrays around one PDF *)
(** The cursor just behind everything in the arrays, and arrays put one after the other. *)
Definition end_of (A : arrays) : cursor :=
  mkCur (List.length (a_fun A)) (List.length (a_par A)) (List.length (a_con A)) (List.length (a_obs A)) (List.length (a_nor A)).
Definition join (A B : arrays) : arrays :=
  mkArrays (a_fun A ++ a_fun B) (a_par A ++ a_par B) (a_con A ++ a_con B) (a_obs A ++ a_obs B) (a_nor A ++ a_nor B).
