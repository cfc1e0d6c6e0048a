import json,re,glob
claims=[]
def c(pid,status,theorems,note=""):
    claims.append({"property":pid,"status":status,"theorems":theorems,"note":note})
exec(open("/verif/tools/claims.py").read())
names=set()
for f in glob.glob("/verif/rocq/theories/*.v"):
    names|=set(re.findall(r"^(?:Theorem|Lemma|Corollary)\s+(\w+)",open(f).read(),re.M))
for x in claims:
    for t in x["theorems"]:
        assert t in names,(x["property"],t)
json.dump({"claims":claims},open("/verif/MANIFEST.json","w"),indent=1)
print(len(claims),"claims")
used={t for x in claims for t in x["theorems"]}
for f in sorted(glob.glob("/verif/rocq/theories/Prop*.v")):
    for t in re.findall(r"^Theorem\s+(\w+)",open(f).read(),re.M):
        if t not in used: print("unlisted:",t)
