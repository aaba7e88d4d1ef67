(** Model of mav_trajectory_generation/src/rpoly/rpoly_ak1.cpp (Jenkins-Traub
    root finder).  Coefficient arrays are lists in decreasing order with exactly
    the entries in use: p (and qp) N + 1, K (and qk, svk, temp) N; reading another
    entry is undefined behaviour.  Loops without a bound in the code carry a
    bound (None: bound reached). *)
From Coq Require Import ZArith List Bool.
From Verif Require Import Num.
Import ListNotations.

(** The functions of <cmath> called in rpoly_ak1.cpp:163-167, 235-236, 252; pow is
    called with base 2 only. *)
Record rp_math (T : Type) := mkRpMath {
  m_log : T -> T; m_exp : T -> T; m_cos : T -> T; m_sin : T -> T; m_pow2 : Z -> T
}.
Arguments m_log {T}. Arguments m_exp {T}. Arguments m_cos {T}. Arguments m_sin {T}. Arguments m_pow2 {T}.

(** The scalars a1, a3, a7, c, d, e, f, g, h that calcSC_ak1 computes
    (rpoly_ak1.cpp:566-607). *)
Record scalars (T : Type) := mkScalars {
  s_a1 : T; s_a3 : T; s_a7 : T; s_c : T; s_d : T; s_e : T; s_f : T; s_g : T; s_h : T
}.
Arguments mkScalars {T}. Arguments s_a1 {T}. Arguments s_a3 {T}. Arguments s_a7 {T}. Arguments s_c {T}. Arguments s_d {T}.
Arguments s_e {T}. Arguments s_f {T}. Arguments s_g {T}. Arguments s_h {T}.

(** The variables of Fxshfr_ak1 that QuadIT_ak1 and RealIT_ak1 work on
    (rpoly_ak1.cpp:403-406, 470-500): a, b, the scalars, K, qp, qk and the
    zeros *szr, *szi, *lzr, *lzi. *)
Record rp_state (T : Type) := mkRp {
  r_a : T; r_b : T; r_sc : scalars T; r_K : list T; r_qp : list T; r_qk : list T;
  r_szr : T; r_szi : T; r_lzr : T; r_lzi : T
}.
Arguments mkRp {T}. Arguments r_a {T}. Arguments r_b {T}. Arguments r_sc {T}. Arguments r_K {T}. Arguments r_qp {T}. Arguments r_qk {T}.
Arguments r_szr {T}. Arguments r_szi {T}. Arguments r_lzr {T}. Arguments r_lzi {T}.

Section Rpoly.
  Context {T : Type} {ops : NumOps T}.
  Local Open Scope num_scope.
  Variable math : rp_math T.
  (** The value of double variables before their first assignment; a read of
      one is not modelled as undefined behaviour. *)
  Variable junk : T.

  (** FLT_MIN, FLT_MAX; lo (rpoly_ak1.cpp:165); RADFAC (161-162), with the double
      nearest to the literal; cosr, sinr (166-167). *)
  Definition flt_min : T := nlit 1 (2 ^ 126).
  Definition flt_max : T := nofZ (2 ^ 128 - 2 ^ 104).
  Definition rp_lo : T := flt_min / dbl_epsilon.
  Definition radfac : T := nlit 884279719003555 (2 ^ 48) / nofZ 180.
  Definition cosr : T := m_cos math (nofZ 94 * radfac).
  Definition sinr : T := m_sin math (nofZ 94 * radfac).
  (** 10.0 * DBL_EPSILON * x, as in rpoly_ak1.cpp:582-583, 626. *)
  Definition ten_eps (x : T) : T := nofZ 10 * dbl_epsilon * x.

  (** rpoly_ak1.cpp:885-937 Quad_ak1: (sr, si, lr, li). *)
  Definition quad (a b1 c : T) : T * T * (T * T) :=
    if a =? n0 then ((if negb (b1 =? n0) then - (c / b1) else n0), n0, (n0, n0))
    else if c =? n0 then (n0, n0, (- (b1 / a), n0))
    else
      let b := b1 / nofZ 2 in
      let '(e, d) :=
        if nabs b <? nabs c then
          let e := - (if n0 <=? c then a else - a) + b * (b / nabs c) in (e, nsqrt (nabs e) * nsqrt (nabs c))
        else
          let e := - ((a / b) * (c / b)) + n1 in (e, nsqrt (nabs e) * nabs b) in
      if n0 <=? e then
        let d' := if n0 <=? b then - d else d in
        let lr := (- b + d') / a in
        ((if negb (lr =? n0) then (c / lr) / a else n0), n0, (lr, n0))
      else
        let r := - (b / a) in let si := nabs (d / a) in (r, si, (r, - si)).

  (** rpoly_ak1.cpp:557-561: the loop of QuadSD_ak1 over p[2], p[3], ...; the
      entries of q, then *a and *b. *)
  Fixpoint quadSD_loop (p : list T) (u v a b : T) : list T * (T * T) :=
    match p with
    | [] => ([], (a, b))
    | x :: p' =>
        let q := - (a * u + b * v) + x in
        let r := quadSD_loop p' u v q a in (q :: fst r, snd r)
    end.
  (** rpoly_ak1.cpp:547-564 QuadSD_ak1: (q, (a, b)). *)
  Definition quadSD (u v : T) (p : list T) : outcome (list T * (T * T)) :=
    match p with
    | p0 :: p1 :: p' =>
        let b := p0 in let a := - (b * u) + p1 in
        let r := quadSD_loop p' u v a b in Ok (b :: a :: fst r, snd r)
    | _ => UB
    end.

  (** rpoly_ak1.cpp:566-607 calcSC_ak1: (tFlag, scalars, qk); N is the length
      of K. *)
  Definition calcSC (a b : T) (sc : scalars T) (K : list T) (u v : T) : outcome (nat * scalars T * list T) :=
    r <-- quadSD u v K ;;
    let '(qk, (c, d)) := r in
    k1 <-- oget K (length K - 1) ;; k2 <-- oget K (length K - 2) ;;
    if (nabs c <=? ten_eps (nabs k1)) && (nabs d <=? ten_eps (nabs k2)) then
      Ok (3%nat, mkScalars (s_a1 sc) (s_a3 sc) (s_a7 sc) c d (s_e sc) (s_f sc) (s_g sc) (s_h sc), qk)
    else
      let h := v * b in
      if nabs c <=? nabs d then
        let e := a / d in let f := c / d in let g := u * b in
        Ok (2%nat, mkScalars (- a + f * b) (e * (g + a) + h * (b / d)) (h + (f + u) * a) c d e f g h, qk)
      else
        let e := a / c in let f := d / c in let g := e * u in
        Ok (1%nat, mkScalars (- (a * (d / c)) + b) (e * a + (g + h / c) * b) (g * d + h * f + a) c d e f g h, qk).

  (** rpoly_ak1.cpp:609-649 nextK_ak1: K and the scalars with a3, a7 divided by
      a1 in the scaled form. *)
  Definition nextK (tFlag : nat) (a b : T) (sc : scalars T) (K qk qp : list T) : outcome (list T * scalars T) :=
    let N := length K in
    if Nat.eqb tFlag 3 then
      rest <-- omap (fun i => oget qk (i - 2)) (seq 2 (N - 2)) ;; Ok (n0 :: n0 :: rest, sc)
    else
      let temp := if Nat.eqb tFlag 1 then b else a in
      q0 <-- oget qp 0 ;; q1 <-- oget qp 1 ;;
      if ten_eps (nabs temp) <? nabs (s_a1 sc) then
        let a7 := s_a7 sc / s_a1 sc in let a3 := s_a3 sc / s_a1 sc in
        rest <-- omap (fun i => x <-- oget qp (i - 1) ;; y <-- oget qk (i - 2) ;; z <-- oget qp i ;;
                                Ok (- (a7 * x) + a3 * y + z)) (seq 2 (N - 2)) ;;
        Ok (q0 :: (- (a7 * q0) + q1) :: rest,
            mkScalars (s_a1 sc) a3 a7 (s_c sc) (s_d sc) (s_e sc) (s_f sc) (s_g sc) (s_h sc))
      else
        rest <-- omap (fun i => x <-- oget qp (i - 1) ;; y <-- oget qk (i - 2) ;;
                                Ok (- (s_a7 sc * x) + s_a3 sc * y)) (seq 2 (N - 2)) ;;
        Ok (n0 :: (- s_a7 sc * q0) :: rest, sc).

  (** rpoly_ak1.cpp:651-689 newest_ak1: (uu, vv). *)
  Definition newest (tFlag : nat) (a b : T) (sc : scalars T) (u v : T) (K p : list T) : outcome (T * T) :=
    if Nat.eqb tFlag 3 then Ok (n0, n0)
    else
      let N := length K in
      let a4 := if Nat.eqb tFlag 2 then (a + s_g sc) * s_f sc + s_h sc else a + u * b + s_h sc * s_f sc in
      let a5 := if Nat.eqb tFlag 2 then (s_f sc + u) * s_c sc + v * s_d sc else s_c sc + (u + v * s_f sc) * s_d sc in
      k1 <-- oget K (N - 1) ;; k2 <-- oget K (N - 2) ;; pN <-- oget p N ;; pN1 <-- oget p (N - 1) ;;
      let b1 := - k1 / pN in
      let b2 := - (k2 + b1 * pN1) / pN in
      let c1 := v * b2 * s_a1 sc in
      let c2 := b1 * s_a7 sc in
      let c3 := b1 * b1 * s_a3 sc in
      let c4 := - (c2 + c3) + c1 in
      let temp := - c4 + a5 + b1 * a4 in
      if negb (temp =? n0) then
        Ok (- ((u * (c3 + c2) + v * (b1 * s_a1 sc + b2 * s_a7 sc)) / temp) + u, v * (n1 + c4 / temp))
      else Ok (n0, n0).

  (** rpoly_ak1.cpp:759-763: k times. *)
  Fixpoint fixed_steps (k : nat) (u v : T) (st : rp_state T) : outcome (rp_state T) :=
    match k with
    | O => Ok st
    | S k' =>
        c <-- calcSC (r_a st) (r_b st) (r_sc st) (r_K st) u v ;;
        let '(tFlag, sc, qk) := c in
        n <-- nextK tFlag (r_a st) (r_b st) sc (r_K st) qk (r_qp st) ;;
        fixed_steps k' u v (mkRp (r_a st) (r_b st) (snd n) (fst n) (r_qp st) qk (r_szr st) (r_szi st) (r_lzr st) (r_lzi st))
    end.

  (** rpoly_ak1.cpp:724-732: the bound ee on the rounding error. *)
  Definition quad_error (qp : list T) (a b szr v : T) : outcome T :=
    let zm := nsqrt (nabs v) in
    q0 <-- oget qp 0 ;;
    let t := - (szr * b) in
    let ee := fold_left (fun ee q => ee * zm + nabs q) (firstn (length qp - 2) (skipn 1 qp)) (nofZ 2 * nabs q0) in
    let ee := ee * zm + nabs (a + t) in
    Ok ((nofZ 9 * ee + nofZ 2 * nabs t - nofZ 7 * (nabs (a + t) + zm * nabs b)) * dbl_epsilon).

  (** rpoly_ak1.cpp:707-788: the loop of QuadIT_ak1: (NZ, variables).  p has N+1
      entries. *)
  Fixpoint quadIT_loop (fuel : nat) (p : list T) (j : nat) (tried : bool) (u v relstp omp : T) (st : rp_state T)
    : outcome (option (nat * rp_state T)) :=
    match fuel with
    | O => Ok None
    | S fuel' =>
        let '(szr, szi, (lzr, lzi)) := quad n1 u v in
        if nlit 1 100 * nabs lzr <? nabs (nabs szr - nabs lzr) then
          Ok (Some (0%nat, mkRp (r_a st) (r_b st) (r_sc st) (r_K st) (r_qp st) (r_qk st) szr szi lzr lzi))
        else
          q <-- quadSD u v p ;;
          let '(qp, (a, b)) := q in
          let mp := nabs (- (szr * b) + a) + nabs (szi * b) in
          ee <-- quad_error qp a b szr v ;;
          let st1 := mkRp a b (r_sc st) (r_K st) qp (r_qk st) szr szi lzr lzi in
          if mp <=? nofZ 20 * ee then Ok (Some (2%nat, st1))
          else
            let j := S j in
            if Nat.ltb 20 j then Ok (Some (0%nat, st1))
            else
              let stall := Nat.leb 2 j && ((relstp <=? nlit 1 100) && (omp <=? mp) && negb tried) in
              s <-- (if stall then
                       let relstp' := if relstp <? dbl_epsilon then nsqrt dbl_epsilon else nsqrt relstp in
                       let u' := u - u * relstp' in
                       let v' := v + v * relstp' in
                       q <-- quadSD u' v' p ;;
                       st2 <-- fixed_steps 5 u' v' (mkRp (fst (snd q)) (snd (snd q)) (r_sc st1) (r_K st1) (fst q) (r_qk st1) szr szi lzr lzi) ;;
                       Ok (u', v', (relstp', (true, (0%nat, st2))))
                     else Ok (u, v, (relstp, (tried, (j, st1))))) ;;
              let '(u, v, (relstp, (tried, (j, st2)))) := s in
              c <-- calcSC (r_a st2) (r_b st2) (r_sc st2) (r_K st2) u v ;;
              let '(tFlag, sc, qk) := c in
              n <-- nextK tFlag (r_a st2) (r_b st2) sc (r_K st2) qk (r_qp st2) ;;
              c' <-- calcSC (r_a st2) (r_b st2) (snd n) (fst n) u v ;;
              let '(tFlag', sc', qk') := c' in
              uv <-- newest tFlag' (r_a st2) (r_b st2) sc' u v (fst n) p ;;
              let st3 := mkRp (r_a st2) (r_b st2) sc' (fst n) (r_qp st2) qk' szr szi lzr lzi in
              if negb (snd uv =? n0) then
                quadIT_loop fuel' p j tried (fst uv) (snd uv) (nabs ((- v + snd uv) / snd uv)) mp st3
              else Ok (Some (0%nat, st3))
    end.
  (** rpoly_ak1.cpp:691-792 QuadIT_ak1; its own variable c starts undefined and
      the caller's keeps its value. *)
  Definition quadIT (fuel : nat) (p : list T) (uu vv : T) (st : rp_state T) : outcome (option (nat * rp_state T)) :=
    let with_c c st := let s := r_sc st in
      mkRp (r_a st) (r_b st) (mkScalars (s_a1 s) (s_a3 s) (s_a7 s) c (s_d s) (s_e s) (s_f s) (s_g s) (s_h s))
           (r_K st) (r_qp st) (r_qk st) (r_szr st) (r_szi st) (r_lzr st) (r_lzi st) in
    r <-- quadIT_loop fuel p 0 false uu vv junk junk (with_c junk st) ;;
    match r with
    | None => Ok None
    | Some (nz, st') => Ok (Some (nz, with_c (s_c (r_sc st)) st'))
    end.

  (** Horner's scheme with the intermediate results, rpoly_ak1.cpp:813, 857. *)
  Fixpoint horner_all (pv s : T) (p : list T) : list T :=
    match p with
    | [] => []
    | x :: p' => let pv' := pv * s + x in pv' :: horner_all pv' s p'
    end.
  Definition horner_list (s : T) (p : list T) : outcome (list T * T) :=
    match p with
    | [] => UB
    | p0 :: p' => let q := p0 :: horner_all p0 s p' in Ok (q, last q p0)
    end.

  (** rpoly_ak1.cpp:809-879: the loop of RealIT_ak1: (NZ, (iFlag, (sss,
      variables))). *)
  Fixpoint realIT_loop (fuel : nat) (p : list T) (j : nat) (sss s t omp : T) (st : rp_state T)
    : outcome (option (nat * (bool * (T * rp_state T)))) :=
    match fuel with
    | O => Ok None
    | S fuel' =>
        q <-- horner_list s p ;;
        let '(qp, pv) := q in
        let mp := nabs pv in
        let ms := nabs s in
        q0 <-- oget qp 0 ;;
        let ee := fold_left (fun ee x => ee * ms + nabs x) (skipn 1 qp) (nlit 1 2 * nabs q0) in
        let K := r_K st in
        let with_q K qk szr szi := mkRp (r_a st) (r_b st) (r_sc st) K qp qk szr szi (r_lzr st) (r_lzi st) in
        if mp <=? nofZ 20 * dbl_epsilon * (nofZ 2 * ee - mp) then
          Ok (Some (1%nat, (false, (sss, with_q K (r_qk st) s n0))))
        else
          let j := S j in
          let st1 := with_q K (r_qk st) (r_szr st) (r_szi st) in
          if Nat.ltb 10 j then Ok (Some (0%nat, (false, (sss, st1))))
          else if Nat.leb 2 j && ((nabs t <=? nlit 1 1000 * nabs (- t + s)) && (omp <? mp)) then
            Ok (Some (0%nat, (true, (s, st1))))
          else
            k <-- horner_list s K ;;
            let '(qk, kv) := k in
            k1 <-- oget K (length K - 1) ;;
            K' <-- (if nabs k1 * nofZ 10 * dbl_epsilon <? nabs kv then
                      let t := - (pv / kv) in
                      rest <-- omap (fun i => x <-- oget qk (i - 1) ;; y <-- oget qp i ;; Ok (t * x + y)) (seq 1 (length K - 1)) ;;
                      Ok (q0 :: rest)
                    else
                      rest <-- omap (fun i => oget qk (i - 1)) (seq 1 (length K - 1)) ;; Ok (n0 :: rest)) ;;
            k' <-- horner_list s K' ;;
            k1' <-- oget K' (length K - 1) ;;
            let kv := snd k' in
            let t := if nabs k1' * nofZ 10 * dbl_epsilon <? nabs kv then - (pv / kv) else n0 in
            realIT_loop fuel' p j sss (s + t) t mp (with_q K' qk (r_szr st) (r_szi st))
    end.
  (** rpoly_ak1.cpp:794-883 RealIT_ak1. *)
  Definition realIT (fuel : nat) (p : list T) (sss : T) (st : rp_state T) := realIT_loop fuel p 0 sss sss junk junk st.

  (** rpoly_ak1.cpp:463-526: the do-while loop that tries the two iterations.
      The result is (NZ, variables, betav, betas); NZ > 0: return from
      Fxshfr_ak1. *)
  Fixpoint try_loop (fuel : nat) (p svk : list T) (spass vpass : bool) (tss tvv : T)
           (fflag stry vtry : bool) (ui vi s betav betas : T) (st : rp_state T)
    : outcome (option (nat * (rp_state T * (T * T)))) :=
    let with_K K st := mkRp (r_a st) (r_b st) (r_sc st) K (r_qp st) (r_qk st) (r_szr st) (r_szi st) (r_lzr st) (r_lzi st) in
    match fuel with
    | O => Ok None
    | S fuel' =>
        q <-- (if fflag && (spass && (negb vpass || (tss <? tvv))) then Ok (Some (0%nat, (true, (vtry, (betav, st)))))
               else
                 r <-- quadIT fuel' p ui vi st ;;
                 match r with
                 | None => Ok None
                 | Some (nz, st) =>
                     if Nat.ltb 0 nz then Ok (Some (nz, (false, (vtry, (betav, st)))))
                     else if stry || negb spass then Ok (Some (0%nat, (false, (true, (betav * nlit 1 4, st)))))
                     else Ok (Some (0%nat, (true, (true, (betav * nlit 1 4, with_K svk st)))))
                 end) ;;
        match q with
        | None => Ok None
        | Some (nz, (linear, (vtry, (betav, st)))) =>
            if Nat.ltb 0 nz then Ok (Some (nz, (st, (betav, betas))))
            else
              l <-- (if linear then
                       r <-- realIT fuel' p s st ;;
                       match r with
                       | None => Ok None
                       | Some (nz, (iflag, (s, st))) => Ok (Some (nz, (iflag, (true, (s, (betas * nlit 1 4, st))))))
                       end
                     else Ok (Some (0%nat, (false, (stry, (s, (betas, st))))))) ;;
              match l with
              | None => Ok None
              | Some (nz, (iflag, (stry, (s, (betas, st))))) =>
                  if Nat.ltb 0 nz then Ok (Some (nz, (st, (betav, betas))))
                  else
                    let '(ui, vi, st) := if iflag then (- (s + s), s * s, st) else (ui, vi, with_K svk st) in
                    if vpass && negb vtry then
                      try_loop fuel' p svk spass vpass tss tvv false stry vtry ui vi s betav betas st
                    else Ok (Some (0%nat, (st, (betav, betas))))
              end
        end
    end.

  (** rpoly_ak1.cpp:420-542: the steps j, j+1, ... of Fxshfr_ak1 (steps many);
      (NZ, variables). *)
  Fixpoint fxshfr_loop (fuel steps : nat) (p : list T) (u v : T) (j tFlag : nat) (betav betas ovv oss otv ots : T) (st : rp_state T)
    : outcome (option (nat * rp_state T)) :=
    match steps with
    | O => Ok (Some (0%nat, st))
    | S steps' =>
        let N := length (r_K st) in
        n <-- nextK tFlag (r_a st) (r_b st) (r_sc st) (r_K st) (r_qk st) (r_qp st) ;;
        c <-- calcSC (r_a st) (r_b st) (snd n) (fst n) u v ;;
        let '(tFlag, sc, qk) := c in
        uv <-- newest tFlag (r_a st) (r_b st) sc u v (fst n) p ;;
        let '(ui, vi) := uv in
        let st1 := mkRp (r_a st) (r_b st) sc (fst n) (r_qp st) qk (r_szr st) (r_szi st) (r_lzr st) (r_lzi st) in
        let vv := vi in
        k1 <-- oget (fst n) (N - 1) ;; pN <-- oget p N ;;
        let ss := if negb (k1 =? n0) then - (pN / k1) else n0 in
        let active := negb (Nat.eqb j 0) && negb (Nat.eqb tFlag 3) in
        let tv := if active && negb (vv =? n0) then nabs ((vv - ovv) / vv) else n1 in
        let ts := if active && negb (ss =? n0) then nabs ((ss - oss) / ss) else n1 in
        let tvv := if tv <? otv then tv * otv else n1 in
        let tss := if ts <? ots then ts * ots else n1 in
        let vpass := tvv <? betav in
        let spass := tss <? betas in
        if active && (spass || vpass) then
          r <-- try_loop fuel p (fst n) spass vpass tss tvv true false false ui vi ss betav betas st1 ;;
          match r with
          | None => Ok None
          | Some (nz, (st2, (betav, betas))) =>
              if Nat.ltb 0 nz then Ok (Some (nz, st2))
              else
                q <-- quadSD u v p ;;
                let '(qp, (a, b)) := q in
                c <-- calcSC a b (r_sc st2) (r_K st2) u v ;;
                let '(tFlag, sc, qk) := c in
                fxshfr_loop fuel steps' p u v (S j) tFlag betav betas vv ss tv ts
                  (mkRp a b sc (r_K st2) qp qk (r_szr st2) (r_szi st2) (r_lzr st2) (r_lzi st2))
          end
        else fxshfr_loop fuel steps' p u v (S j) tFlag betav betas vv ss tv ts st1
    end.
  (** rpoly_ak1.cpp:391-545 Fxshfr_ak1; the zeros are those of the caller. *)
  Definition fxshfr (fuel L2 : nat) (sr bnd : T) (K p : list T) (zeros : T * T * (T * T)) : outcome (option (nat * rp_state T)) :=
    let u := - (nofZ 2 * sr) in
    let v := bnd in
    q <-- quadSD u v p ;;
    let '(qp, (a, b)) := q in
    c <-- calcSC a b (mkScalars junk junk junk junk junk junk junk junk junk) K u v ;;
    let '(tFlag, sc, qk) := c in
    let '(szr, szi, (lzr, lzi)) := zeros in
    fxshfr_loop fuel L2 p u v 0 tFlag (nlit 1 4) (nlit 1 4) v sr junk junk (mkRp a b sc K qp qk szr szi lzr lzi).

  (** rpoly_ak1.cpp:213-241: the scaled coefficients; the conversion to int is
      undefined out of range. *)
  Definition scale_coefficients (p : list T) : outcome (list T) :=
    let moduli_max := fold_left (fun m c => if m <? nabs c then nabs c else m) p n0 in
    let moduli_min := fold_left (fun m c => if negb (nabs c =? n0) && (nabs c <? m) then nabs c else m) p flt_max in
    let sc := rp_lo / moduli_min in
    if ((sc <=? n1) && (nofZ 10 <=? moduli_max)) || ((n1 <? sc) && (moduli_max <=? flt_max / sc)) then
      let sc := if sc =? n0 then flt_min else sc in
      match ntoZ (m_log math sc / m_log math (nofZ 2) + nlit 1 2) with
      | Some l =>
          if ((- 2 ^ 31 <=? l) && (l <? 2 ^ 31))%Z then
            let factor := m_pow2 math l in
            Ok (if negb (factor =? n1) then map (fun c => c * factor) p else p)
          else UB
      | None => UB
      end
    else Ok p.

  (** rpoly_ak1.cpp:260-268: chop the interval; x. *)
  Fixpoint chop (fuel : nat) (pt : list T) (xm : T) : option T :=
    match fuel with
    | O => None
    | S fuel' =>
        let x := xm in
        let xm := nlit 1 10 * x in
        let ff := match pt with [] => n0 | p0 :: pt' => fold_left (fun ff c => ff * xm + c) pt' p0 end in
        if n0 <? ff then chop fuel' pt xm else Some x
    end.
  (** rpoly_ak1.cpp:270-283: Newton iteration. *)
  Fixpoint newton (fuel : nat) (pt : list T) (dx x : T) : option T :=
    match fuel with
    | O => None
    | S fuel' =>
        if nlit 5 1000 <? nabs (dx / x) then
          match pt with
          | [] => None
          | p0 :: pt' =>
              let '(ff, df) := fold_left (fun fd c => let ff := x * fst fd + c in (ff, x * snd fd + ff)) (removelast pt') (p0, p0) in
              let ff := x * ff + last pt' n0 in
              let dx := ff / df in
              newton fuel' pt dx (x - dx)
          end
        else Some x
    end.
  (** rpoly_ak1.cpp:243-285: a lower bound on the moduli of the zeros. *)
  Definition lower_bound (fuel : nat) (p : list T) : outcome (option T) :=
    let N := (length p - 1)%nat in
    pN <-- oget p N ;; p0 <-- oget p 0 ;; pN1 <-- oget p (N - 1) ;;
    let pt := map nabs (firstn N p) ++ [- nabs pN] in
    let x := m_exp math ((m_log math (- - nabs pN) - m_log math (nabs p0)) / nofZ (Z.of_nat N)) in
    let x := if negb (nabs pN1 =? n0) then let xm := - - nabs pN / nabs pN1 in if xm <? x then xm else x else x in
    match chop fuel pt x with
    | None => Ok None
    | Some x => Ok (newton fuel pt x x)
    end.

  (** rpoly_ak1.cpp:297-320: k of the steps without shift. *)
  Fixpoint no_shift_steps (k : nat) (p K : list T) (zerok : bool) : outcome (list T) :=
    match k with
    | O => Ok K
    | S k' =>
        let N := length K in
        aa <-- oget p N ;; bb <-- oget p (N - 1) ;;
        cc <-- oget K (N - 1) ;;
        if zerok then
          let K' := n0 :: removelast K in
          kl <-- oget K' (N - 1) ;; no_shift_steps k' p K' (kl =? n0)
        else
          let t := - aa / cc in
          rest <-- omap (fun j => x <-- oget K (j - 1) ;; y <-- oget p j ;; Ok (t * x + y)) (seq 1 (N - 1)) ;;
          p0 <-- oget p 0 ;;
          let K' := p0 :: rest in
          kl <-- oget K' (N - 1) ;; no_shift_steps k' p K' (nabs kl <=? nabs bb * dbl_epsilon * nofZ 10)
    end.
  (** rpoly_ak1.cpp:287-320: the initial K polynomial. *)
  Definition initial_K (p : list T) : outcome (list T) :=
    let N := (length p - 1)%nat in
    rest <-- omap (fun i => c <-- oget p i ;; Ok (nofZ (Z.of_nat (N - i)) * c / nofZ (Z.of_nat N))) (seq 1 (N - 1)) ;;
    p0 <-- oget p 0 ;;
    let K := p0 :: rest in
    kl <-- oget K (N - 1) ;;
    no_shift_steps 5 p K (kl =? n0).

  (** rpoly_ak1.cpp:322-369: the shifts jj, jj + 1, ..., 20 (tries many); xx, yy
      rotate.  The result is (NZ, variables) with xx and yy; NZ = 0: no
      convergence. *)
  Fixpoint shifts (fuel tries jj : nat) (p temp : list T) (bnd xx yy : T) (zeros : T * T * (T * T))
    : outcome (option (nat * (rp_state T * (T * T)))) :=
    match tries with
    | O => Ok (Some (0%nat, (mkRp junk junk (mkScalars junk junk junk junk junk junk junk junk junk) [] [] [] junk junk junk junk, (xx, yy))))
    | S tries' =>
        let xxx := - (sinr * yy) + cosr * xx in
        let yy := sinr * xx + cosr * yy in
        let xx := xxx in
        let sr := bnd * xx in
        r <-- fxshfr fuel (20 * jj) sr bnd temp p zeros ;;
        match r with
        | None => Ok None
        | Some (nz, st) =>
            if Nat.eqb nz 0 then shifts fuel tries' (S jj) p temp bnd xx yy (r_szr st, r_szi st, (r_lzr st, r_lzi st))
            else Ok (Some (nz, (st, (xx, yy))))
        end
    end.

  (** The arrays zeror, zeroi of MAXDEGREE entries, None before they are
      written (rpoly_ak1.cpp:93-94). *)
  Definition slots := list (option (T * T)).
  Definition write_slot (z : slots) (i : nat) (x : T * T) : outcome slots :=
    if Nat.ltb i (length z) then Ok (firstn i z ++ Some x :: skipn (S i) z) else UB.

  (** rpoly_ak1.cpp:195-379: the main loop; (degree, slots).  degree is *Degree,
      p has N + 1 entries. *)
  Fixpoint main_loop (fuel : nat) (degree : nat) (p : list T) (xx yy : T) (zeros : T * T * (T * T)) (z : slots)
    : outcome (option (nat * slots)) :=
    match fuel with
    | O => Ok None
    | S fuel' =>
        let N := (length p - 1)%nat in
        if Nat.ltb N 1 then Ok (Some (degree, z))
        else if Nat.leb N 2 then
          p0 <-- oget p 0 ;; p1 <-- oget p 1 ;;
          if Nat.ltb N 2 then
            z' <-- write_slot z (degree - 1) (- (p1 / p0), n0) ;; Ok (Some (degree, z'))
          else
            p2 <-- oget p 2 ;;
            let '(sr, si, (lr, li)) := quad p0 p1 p2 in
            z1 <-- write_slot z (degree - 2) (sr, si) ;;
            z2 <-- write_slot z1 (degree - 1) (lr, li) ;; Ok (Some (degree, z2))
        else
          p <-- scale_coefficients p ;;
          b <-- lower_bound fuel' p ;;
          match b with
          | None => Ok None
          | Some bnd =>
              K <-- initial_K p ;;
              r <-- shifts fuel' 20 1 p K bnd xx yy zeros ;;
              match r with
              | None => Ok None
              | Some (nz, (st, (xx, yy))) =>
                  if Nat.eqb nz 0 then Ok (Some (degree - N, z)%nat)
                  else
                    let j := (degree - N)%nat in
                    z1 <-- write_slot z j (r_szr st, r_szi st) ;;
                    z2 <-- (if negb (Nat.eqb nz 1) then write_slot z1 (j + 1) (r_lzr st, r_lzi st) else Ok z1) ;;
                    main_loop fuel' degree (firstn (length p - nz) (r_qp st)) xx yy
                      (r_szr st, r_szi st, (r_lzr st, r_lzi st)) z2
              end
          end
    end.

  (** rpoly_ak1.cpp:182-188: remove zeros at the origin.  The coefficients are
      given in increasing order here, i.e. op[N] first. *)
  Fixpoint strip_zeros (op_rev : list T) (j : nat) (z : slots) : outcome (list T * slots) :=
    match op_rev with
    | [] => UB
    | c :: rest =>
        if c =? n0 then z' <-- write_slot z j (n0, n0) ;; strip_zeros rest (S j) z' else Ok (op_rev, z)
    end.

  (** rpoly_ak1.cpp:153-389 rpoly_ak1 for *Degree + 1 coefficients op; (Degree,
      slots).  Degree may be set to -1 or 0. *)
  Definition rpoly (fuel : nat) (op : list T) (z : slots) : outcome (option (Z * slots)) :=
    let degree := (length op - 1)%nat in
    if Nat.ltb 100 degree then Ok (Some ((-1)%Z, z))
    else
      op0 <-- oget op 0 ;;
      if negb (op0 =? n0) then
        s <-- strip_zeros (rev op) 0 z ;;
        let xx := nsqrt (nlit 1 2) in
        r <-- main_loop fuel degree (rev (fst s)) xx (- xx) (junk, junk, (junk, junk)) (snd s) ;;
        match r with
        | None => Ok None
        | Some (d, z) => Ok (Some (Z.of_nat d, z))
        end
      else Ok (Some (0%Z, z)).

  (** rpoly_ak1.cpp:57-68 findLastNonZeroCoeff: the coefficients up to it, in
      decreasing order (82-83). *)
  Fixpoint drop_small (c_rev : list T) : list T :=
    match c_rev with
    | [] => []
    | c :: rest => if dbl_min <=? nabs c then c_rev else drop_small rest
    end.
  (** rpoly_ak1.cpp:70-117 findRootsJenkinsTraub, 942-946 rpolyWrapper: (result,
      roots).  The roots keep their value when none is found (101-106).  The buffers
      have 101 and 100 entries; a polynomial with more coefficients is written
      over the end (96-98). *)
  Definition findRootsJenkinsTraub (fuel : nat) (coefficients : list T) (roots : list (T * T)) : outcome (option (bool * list (T * T))) :=
    let decreasing := drop_small (rev coefficients) in
    if Nat.ltb (length decreasing) 2 then Ok (Some (true, []))
    else if Nat.ltb 101 (length decreasing) then UB
    else
      r <-- rpoly fuel decreasing (repeat None 100) ;;
      match r with
      | None => Ok None
      | Some (degree, z) =>
          if (0 <? degree)%Z then
            zs <-- omap (fun i => o <-- oget z i ;; match o with Some x => Ok x | None => UB end) (seq 0 (Z.to_nat degree)) ;;
            Ok (Some (true, zs))
          else Ok (Some (false, roots))
      end.
End Rpoly.
