import json
M={}
def s(ids,t):
    for part in ids.split():
        if '-' in part:
            a,b=part.split('-')
            for k in range(int(a[1:]),int(b[1:])+1): M['C%02d'%k]=t
        else: M[part]=t
s('C01','both directions of an equivalence with spelled-out row and column sums')
s('C02','induction over the powerset pass, for any number of dimensions')
s('C03','case analysis through the closure theorem')
s('C04','fold invariant on sums over the fixed-cell list')
s('C05','refutation plus exact characterisation of when construction fails')
s('C06 C07 C08 C10','counting lemma for prefix intervals of a shuffled population; greedy invariant and decreasing measure')
s('C09','computation on margins')
s('C11-C15','membership characterisation of the generators; connectivity by induction on the L1 distance of two tables')
s('C16-C24','step invariants, then induction over the list of draws of a chain; random draws are universally quantified')
s('C25-C28','algebra of finite real sums; refutation by concrete reals')
s('C29-C35','log-sum-exp algebra; derivatives by derivable_pt_lim lemmas')
s('C71','real algebra')
s('C36-C38','induction on leapfrog steps; exact error of the irreversible step')
s('C39-C41 C74','structural induction on nested configurations against the relation `reaches`')
s('C42-C44 C75-C77','list induction on sweep products; injectivity of folder names')
s('C45 C46 C78-C80','exact characterisation of the accepted values; arithmetic on ranges')
s('C47 C48 C60 C81','invariant over all interleavings of events; list induction')
s('C49 C82','induction on coordinates; exact slice membership')
s('C50 C51 C58 C83','invariant over histories of writes; induction over steps')
s('C52 C84','inverse functions by induction on digits and characters')
s('C53 C86-C91','structural induction on nested dictionaries')
s('C54 C59 C85','induction on the option string; case analysis')
s('C55-C57','sorting and window argument; real algebra; dynamic-programming recurrence')
s('C61-C64','real algebra')
s('C65','real algebra over batches')
s('C66-C70 C72 C73','densities of reflected steps; chain invariants; derivatives')
s('C92 C93','exact characterisation plus refutation')
s('C94 C95','fold invariant over the cell list')
s('C96','extremal elements of a column, monotone affine map')
s('C97','induction over the list of hyper-parameters')
s('C98','fold over layer settings, position lemma')
s('C99','induction over the requested losses with a frame condition')
s('C100 C101','permutation and chunk lemma C48')
s('C102','algebra of sums of squares')
s('C103','positivity of -ln on (0,1]')
s('C104','membership of a nested comprehension')
exec(open('/tmp/w/meth_more.py').read())
json.dump(M,open('/tmp/w/methods.json','w'))
